(* CallStackProofs.v: lemmas on the evaluator's stack. *)
From Coq Require Import String List NArith ZArith Lia Bool.
From Coq Require Import ZifyBool ZifyNat ZifyN.
From Verif Require Import Base BitVec UTypeModel AtomModel AtomSpec AtomProofs CallStackModel CallStackSpec.
Import ListNotations.
Ltac Zify.zify_post_hook ::= Z.div_mod_to_equations.
Open Scope N_scope.

Lemma immediate32_ok v : v < 4294967296 -> exists x, immediate32 v = Ok (CVal x) /\ getImmediateData 32 x = Some v.
Proof.
  intros Hv. unfold immediate32, makeImmediate_len. rewrite guard_true by lia.
  destruct (putData_ok (ATOM - 32) 32 v 0) as (a & -> & HA); try (unfold ATOM; lia). cbn [bind ofopt rbind].
  eexists. split; [reflexivity|].
  rewrite (getImmediateData_ok intType 32) by (cbn; try discriminate; auto; lia).
  f_equal. unfold own_bits. cbn [v_bits intType prim ty_enum].
  rewrite (splice_field_same (96 - 32) 32 (msb_bits (N.to_nat 32) v) 0 a); auto; try lia.
  - rewrite bval_msb. apply N.mod_small. change (2 ^ N.of_nat (N.to_nat 32)) with 4294967296. auto.
Qed.

Lemma s32z_small z : (0 <= z < 2147483648)%Z -> s32z z = z.
Proof. intros. unfold s32z. rewrite Z.mod_small by lia. replace (z <? 2147483648)%Z with true by lia. reflexivity. Qed.

Lemma push_n_spec n c s : push_n n c s = OutOfMemory \/
  (push_n n c s = Ok (mkCS (cs_frames s ++ repeat c n) (cs_cur s)) /\ (size s < two31 -> size s + N.of_nat n < two31)).
Proof.
  revert s. induction n; intros s; cbn [push_n repeat].
  - right. rewrite app_nil_r. destruct s. split; auto. lia.
  - unfold pushArg. destruct (size s + 1 <? two31) eqn:E; cbn [rbind]; auto.
    destruct (IHn (mkCS (cs_frames s ++ [c]) (cs_cur s))) as [-> | [-> HB]]; auto.
    right. cbn [cs_frames cs_cur]. rewrite <- app_assoc. split; auto.
    unfold size in *. cbn [cs_frames] in HB. rewrite app_length in HB. cbn [List.length] in HB. lia.
Qed.

Lemma popArgs_spec n l k c : popArgs n (mkCS (l ++ k) c) = Ok (mkCS l c) \/ List.length k <> n.
Proof.
  revert k. induction n; intros k; cbn [popArgs].
  - destruct k; [rewrite app_nil_r; auto | right; discriminate].
  - destruct k as [|x k'] using rev_ind; [right; discriminate|]. clear IHk'.
    destruct (Nat.eq_dec (List.length (k' ++ [x])) (S n)) as [E|]; auto. left.
    rewrite app_length in E. cbn in E. unfold popArg. cbn [cs_frames cs_cur].
    assert (l ++ k' ++ [x] <> []) as HN by (destruct l; [destruct k'|]; discriminate).
    rewrite app_assoc in *. destruct ((l ++ k') ++ [x]) eqn:EE; [congruence|]. rewrite <- EE. cbn [rbind].
    rewrite removelast_last. destruct (IHn k') as [|]; auto. lia.
Qed.

(* the frames of code with parameters mid and locals loc, above the values low it must not touch *)
Definition st (low mid : list cell) (link : cell) (loc : list cell) : cstack :=
  mkCS (low ++ mid ++ link :: loc) (N.of_nat (List.length low) + N.of_nat (List.length mid)).

Lemma st_size low mid link loc :
  size (st low mid link loc) = N.of_nat (List.length low) + N.of_nat (List.length mid) + 1 + N.of_nat (List.length loc).
Proof. unfold st, size. cbn [cs_frames]. rewrite !app_length. cbn [List.length]. lia. Qed.

Lemma replace_at (l : list cell) (i : nat) c : (i < List.length l)%nat ->
  List.length (firstn i l ++ c :: skipn (S i) l) = List.length l.
Proof. intros. rewrite app_length, firstn_length. cbn [List.length]. rewrite skipn_length. lia. Qed.

Lemma replace_app_r (a b : list cell) i c :
  firstn (List.length a + i) (a ++ b) ++ c :: skipn (S (List.length a + i)) (a ++ b) =
  a ++ (firstn i b ++ c :: skipn (S i) b).
Proof.
  replace (S (List.length a + i)) with (List.length a + S i)%nat by lia.
  rewrite firstn_app_2. rewrite skipn_app. rewrite skipn_all2 by lia.
  replace (List.length a + S i - List.length a)%nat with (S i) by lia. rewrite <- app_assoc. reflexivity.
Qed.

Lemma replace_app_l (a b : list cell) i c : (i < List.length a)%nat ->
  firstn i (a ++ b) ++ c :: skipn (S i) (a ++ b) = (firstn i a ++ c :: skipn (S i) a) ++ b.
Proof.
  intros H. rewrite firstn_app, skipn_app. replace (i - List.length a)%nat with 0%nat by lia.
  replace (S i - List.length a)%nat with 0%nat by lia. cbn [firstn skipn]. rewrite app_nil_r, <- app_assoc. reflexivity.
Qed.

Lemma store_own low mid link loc slot c h args :
  own_slot args h slot = true -> List.length mid = N.to_nat args -> List.length loc = N.to_nat h ->
  size (st low mid link loc) < two31 ->
  exists mid' loc', storeInSlot c slot (st low mid link loc) = Ok (st low mid' link loc') /\
    List.length mid' = List.length mid /\ List.length loc' = List.length loc.
Proof.
  intros HO HM HL HS. pose proof HS as HS'. rewrite st_size in HS'. unfold two31 in *. unfold own_slot in HO.
  unfold storeInSlot, storeAtIndex, stackIndexOfSlot. cbn [cs_cur st].
  set (L := List.length low) in *. set (M := List.length mid) in *. set (K := List.length loc) in *.
  assert (u32z (Z.of_N (N.of_nat L + N.of_nat M) + slot) = Z.of_nat L + Z.of_nat M + slot)%Z as ->
    by (rewrite u32z_small; lia).
  rewrite st_size. fold L M K.
  replace (Z.to_N (Z.of_nat L + Z.of_nat M + slot) <? N.of_nat L + N.of_nat M + 1 + N.of_nat K) with true by lia.
  destruct (Z.ltb_spec slot 0).
  - (* a parameter *)
    replace (N.to_nat (Z.to_N (Z.of_nat L + Z.of_nat M + slot))) with (L + Z.to_nat (Z.of_nat M + slot))%nat by lia.
    exists (firstn (Z.to_nat (Z.of_nat M + slot)) mid ++ c :: skipn (S (Z.to_nat (Z.of_nat M + slot))) mid), loc.
    assert (Z.to_nat (Z.of_nat M + slot) < M)%nat as HB by lia.
    split; [|split; auto; apply replace_at; exact HB].
    unfold st. cbn [cs_frames cs_cur]. f_equal. unfold L. rewrite replace_app_r.
    f_equal.
    + f_equal. rewrite replace_app_l by exact HB. reflexivity.
    + rewrite replace_at by exact HB. reflexivity.
  - replace (N.to_nat (Z.to_N (Z.of_nat L + Z.of_nat M + slot))) with (L + (M + S (Z.to_nat (slot - 1))))%nat by lia.
    exists mid, (firstn (Z.to_nat (slot - 1)) loc ++ c :: skipn (S (Z.to_nat (slot - 1))) loc).
    assert (Z.to_nat (slot - 1) < K)%nat as HB by lia.
    split; [|split; auto; apply replace_at; exact HB].
    unfold st. cbn [cs_frames cs_cur]. f_equal. unfold L, M. rewrite replace_app_r. rewrite replace_app_r.
    f_equal.
Qed.

(* induction on nested code *)
Fixpoint isize (i : instr) : nat :=
  match i with
  | ICall _ _ body => S ((fix go (l : list instr) := match l with [] => O | x :: r => (isize x + go r)%nat end) body)
  | _ => 1%nat
  end.
Fixpoint lsize (l : list instr) : nat := match l with [] => O | x :: r => (isize x + lsize r)%nat end.

Lemma isize_call a d body : isize (ICall a d body) = S (lsize body).
Proof. reflexivity. Qed.

Lemma run1_call a d body s : run1 (ICall a d body) s = rbind (addFrameSlots d s) (fun s1 => rbind (run body s1) returnFrame).
Proof. reflexivity. Qed.

Lemma keeps1_call args h a d body : keeps1 args h (ICall a d body) =
  if a <=? h then match keeps a d body with Some _ => Some h | None => None end else None.
Proof.
  cbn [keeps1]. destruct (a <=? h); auto.
  match goal with |- match ?f d body with _ => _ end = _ => assert (forall b d, f d b = keeps a d b) as E end.
  { clear. induction b as [|x r IH]; intros d; cbn [keeps]; auto. destruct (keeps1 a d x); auto. }
  rewrite E. reflexivity.
Qed.

Definition good (args h' : N) low link (mlen : nat) (r : res cstack) : Prop :=
  r = OutOfMemory \/
  exists mid' loc', r = Ok (st low mid' link loc') /\ List.length mid' = mlen /\ List.length loc' = N.to_nat h' /\
    size (st low mid' link loc') < two31.

Lemma call_frame s a d body hb :
  cs_cur s < size s -> size s < two31 -> a <= size s ->
  (forall low mid link loc, List.length mid = N.to_nat a -> List.length loc = N.to_nat d ->
     size (st low mid link loc) < two31 -> good a hb low link (List.length mid) (run body (st low mid link loc))) ->
  run1 (ICall a d body) s = OutOfMemory \/
  exists mid3, run1 (ICall a d body) s = Ok (mkCS (firstn (N.to_nat (size s - a)) (cs_frames s) ++ mid3) (cs_cur s)) /\
    List.length mid3 = N.to_nat a.
Proof.
  intros HC HS Ha IH. rewrite run1_call. unfold addFrameSlots. unfold two31 in HS.
  destruct (immediate32_ok (cs_cur s)) as (lk & -> & HLK); [lia|]. cbn [rbind].
  unfold pushArg. destruct (size s + 1 <? two31) eqn:EM; cbn [rbind]; [|left; auto].
  destruct (immediate32_ok 0) as (z & -> & HZ); [lia|]. cbn [rbind cs_frames].
  match goal with |- context [push_n ?n ?c ?s] => destruct (push_n_spec n c s) as [-> | [-> HPN]] end; cbn [rbind]; [left; auto|].
  cbn [cs_frames cs_cur].
  set (low2 := firstn (N.to_nat (size s - a)) (cs_frames s)).
  set (mid2 := skipn (N.to_nat (size s - a)) (cs_frames s)).
  set (loc2 := repeat (CVal z) (N.to_nat d)).
  assert (List.length low2 = N.to_nat (size s - a)) as HL2 by (unfold low2, size; rewrite firstn_length; unfold size in *; lia).
  assert (List.length mid2 = N.to_nat a) as HM2 by (unfold mid2; rewrite skipn_length; unfold size in *; lia).
  assert (low2 ++ mid2 = cs_frames s) as ELM by apply firstn_skipn.
  match goal with |- context [run body ?s] => assert (s = st low2 mid2 (CVal lk) loc2) as ES end.
  { unfold st. f_equal.
    - rewrite (app_assoc low2), ELM. rewrite <- (app_assoc _ [CVal lk]). reflexivity.
    - unfold size at 1. cbn [cs_frames]. rewrite app_length. cbn [List.length].
      rewrite <- ELM, app_length. lia. }
  rewrite ES. clear ES.
  assert (size (st low2 mid2 (CVal lk) loc2) < two31) as HS3.
  { rewrite st_size. unfold loc2. rewrite repeat_length.
    unfold size in HPN at 1 3. cbn [cs_frames] in HPN. rewrite app_length in HPN. cbn [List.length] in HPN.
    unfold size in *. lia. }
  destruct (IH low2 mid2 (CVal lk) loc2) as [-> | (mid3 & loc3 & -> & H1 & H2 & H3)]; auto.
  { unfold loc2. apply repeat_length. }
  cbn [rbind]. right. unfold returnFrame.
  assert (nth_error (cs_frames (st low2 mid3 (CVal lk) loc3)) (N.to_nat (cs_cur (st low2 mid3 (CVal lk) loc3))) = Some (CVal lk)) as ->.
  { cbn [st cs_frames cs_cur]. rewrite app_assoc. rewrite nth_error_app2 by (rewrite app_length; lia).
    rewrite app_length. replace (_ - _)%nat with 0%nat by lia. reflexivity. }
  rewrite HLK. cbn [ofopt rbind].
  assert (size (st low2 mid3 (CVal lk) loc3) > cs_cur s) as HGT.
  { rewrite st_size. lia. }
  unfold two31 in *.
  rewrite !s32z_small by lia. rewrite u32z_small by lia.
  replace (Z.of_N (cs_cur s) <? Z.of_N (size (st low2 mid3 (CVal lk) loc3)))%Z with true by lia.
  exists mid3. split; [|congruence]. rewrite N2Z.id. f_equal. f_equal.
  unfold st. cbn [cs_frames cs_cur].
  rewrite app_assoc. replace (N.to_nat (N.of_nat (List.length low2) + N.of_nat (List.length mid3))) with (List.length (low2 ++ mid3) + 0)%nat by (rewrite app_length; lia).
  rewrite firstn_app_2. cbn [firstn]. rewrite app_nil_r. reflexivity.
Qed.

Lemma run_keeps : forall n l args h h' low mid link loc, (lsize l <= n)%nat ->
  keeps args h l = Some h' -> List.length mid = N.to_nat args -> List.length loc = N.to_nat h ->
  size (st low mid link loc) < two31 ->
  good args h' low link (List.length mid) (run l (st low mid link loc)).
Proof.
  induction n; intros l args h h' low mid link loc HN HK HM HL HS.
  - destruct l as [|x r]; [|cbn [lsize] in HN; destruct x; cbn in HN; lia].
    cbn [keeps run] in *. injection HK as <-. right. exists mid, loc. auto.
  - destruct l as [|x r]; [cbn [keeps run] in *; injection HK as <-; right; exists mid, loc; auto|].
    cbn [lsize] in HN. cbn [keeps] in HK. destruct (keeps1 args h x) as [h1|] eqn:E1; [|discriminate].
    cbn [run].
    assert (good args h1 low link (List.length mid) (run1 x (st low mid link loc))) as HG.
    { destruct x as [slot c | c | k | a d body].
      - cbn [keeps1 run1] in *. destruct (own_slot args h slot) eqn:EO; [|discriminate]. injection E1 as <-.
        destruct (store_own low mid link loc slot c h args) as (mid' & loc' & E & H1 & H2); auto.
        right. exists mid', loc'. rewrite E. repeat split; auto; try congruence.
        rewrite st_size in *. rewrite H1, H2. auto.
      - cbn [keeps1 run1] in *. injection E1 as <-. unfold pushArg.
        destruct (size (st low mid link loc) + 1 <? two31) eqn:E; [|left; auto].
        right. exists mid, (loc ++ [c]). unfold st at 1. cbn [cs_frames cs_cur]. split.
        + unfold st. f_equal. f_equal. rewrite <- !app_assoc. reflexivity.
        + rewrite st_size in *. rewrite app_length. cbn [List.length]. repeat split; lia.
      - cbn [keeps1 run1] in *. destruct (k <=? h) eqn:E; [|discriminate]. injection E1 as <-.
        right. exists mid, (firstn (N.to_nat (h - k)) loc).
        assert (List.length (firstn (N.to_nat (h - k)) loc) = N.to_nat (h - k)) as HF by (rewrite firstn_length; lia).
        assert (List.length (skipn (N.to_nat (h - k)) loc) = N.to_nat k) as HSK by (rewrite skipn_length; lia).
        split; [|split; auto; split; auto; rewrite st_size in *; rewrite HF; lia].
        unfold st at 1. rewrite <- (firstn_skipn (N.to_nat (h - k)) loc) at 1.
        replace (low ++ mid ++ link :: firstn (N.to_nat (h - k)) loc ++ skipn (N.to_nat (h - k)) loc)
          with ((low ++ mid ++ link :: firstn (N.to_nat (h - k)) loc) ++ skipn (N.to_nat (h - k)) loc)
          by (rewrite <- !app_assoc; reflexivity).
        match goal with |- popArgs ?n (mkCS (?l ++ ?k) ?c) = _ => destruct (popArgs_spec n l k c) as [EP|]; [rewrite EP|congruence] end.
        reflexivity.
      - rewrite keeps1_call in E1. destruct (a <=? h) eqn:Ea; [|discriminate].
        destruct (keeps a d body) as [hb|] eqn:EK; [|discriminate]. injection E1 as <-.
        rewrite isize_call in HN. pose proof HS as HS2. rewrite st_size in HS2.
        destruct (call_frame (st low mid link loc) a d body hb) as [-> | (mid3 & -> & HM3)]; auto.
        { rewrite st_size. cbn [st cs_cur]. lia. }
        { rewrite st_size. lia. }
        { intros. eapply IHn; eauto. lia. }
        { left. reflexivity. }
        right. exists mid, (firstn (N.to_nat (h - a)) loc ++ mid3).
        assert (List.length (firstn (N.to_nat (h - a)) loc ++ mid3) = N.to_nat h) as HLL by (rewrite app_length, firstn_length; lia).
        split; [|split; [auto | split; [auto | rewrite st_size in *; lia]]].
        f_equal. rewrite st_size. unfold st. cbn [cs_frames cs_cur]. f_equal.
        replace (low ++ mid ++ link :: loc) with ((low ++ mid ++ [link]) ++ loc) by (rewrite <- !app_assoc; reflexivity).
        match goal with |- firstn ?n _ ++ _ = _ => replace n with (List.length (low ++ mid ++ [link]) + N.to_nat (h - a))%nat by (rewrite !app_length; cbn [List.length]; lia) end.
        rewrite firstn_app_2. rewrite <- !app_assoc. reflexivity. }
    destruct HG as [-> | (mid' & loc' & -> & H1 & H2 & H3)]; cbn [rbind]; [left; auto|].
    rewrite <- H1. eapply (IHn r args h1); eauto; try congruence.
    destruct x; cbn in HN; lia.
Qed.

(* -- slots -- *)

Lemma store_load c i s s' : storeAtIndex c i s = Ok s' -> loadFromIndex i s' = Ok c.
Proof.
  unfold storeAtIndex, loadFromIndex. destruct (i <? size s) eqn:E; [|discriminate]. intros H. injection H as <-.
  unfold size in *. cbn [cs_frames]. rewrite replace_at by lia. rewrite E.
  rewrite nth_error_app2 by (rewrite firstn_length; lia). rewrite firstn_length.
  replace (_ - _)%nat with 0%nat by lia. reflexivity.
Qed.

Lemma nth_firstn {A} (l : list A) n k : (k < n)%nat -> nth_error (firstn n l) k = nth_error l k.
Proof. revert n k. induction l; intros [|n] [|k] H; cbn [firstn nth_error]; auto; try lia. apply IHl. lia. Qed.

Lemma nth_skipn {A} (l : list A) n k : nth_error (skipn n l) k = nth_error l (n + k).
Proof. revert l k. induction n; intros [|x l] k; cbn [skipn nth_error]; auto. destruct k; reflexivity. cbn. apply IHn. Qed.

Lemma store_other c i j s s' : storeAtIndex c i s = Ok s' -> j <> i -> loadFromIndex j s' = loadFromIndex j s.
Proof.
  unfold storeAtIndex, loadFromIndex. destruct (i <? size s) eqn:E; [|discriminate]. intros H HN. injection H as <-.
  unfold size in *. cbn [cs_frames]. rewrite replace_at by lia.
  destruct (j <? N.of_nat (List.length (cs_frames s))) eqn:E2; auto. f_equal.
  destruct (N.ltb_spec j i).
  - rewrite nth_error_app1 by (rewrite firstn_length; lia). apply nth_firstn. lia.
  - rewrite nth_error_app2 by (rewrite firstn_length; lia). rewrite firstn_length.
    replace (N.to_nat j - _)%nat with (S (N.to_nat j - N.to_nat i - 1)) by lia. cbn [nth_error].
    change (nth_error (skipn (S (N.to_nat i)) (cs_frames s)) (N.to_nat j - N.to_nat i - 1) = nth_error (cs_frames s) (N.to_nat j)).
    rewrite nth_skipn. f_equal. lia.
Qed.

Lemma slot_index s slot : cs_cur s < two31 -> (- Z.of_N (cs_cur s) <= slot < 2147483648)%Z ->
  Z.of_N (stackIndexOfSlot s slot) = (Z.of_N (cs_cur s) + slot)%Z.
Proof. unfold two31. intros. unfold stackIndexOfSlot. rewrite u32z_small; lia. Qed.

Lemma slot_inj s a b : (-2147483648 <= a < 2147483648)%Z -> (-2147483648 <= b < 2147483648)%Z ->
  stackIndexOfSlot s a = stackIndexOfSlot s b -> a = b.
Proof. unfold stackIndexOfSlot, u32z. intros. lia. Qed.
