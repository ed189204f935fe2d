(* ByteTheorems.v: C92. *)
From Coq Require Import String List NArith ZArith Lia Bool.
From Coq Require Import ZifyBool ZifyNat ZifyN.
From Verif Require Import Base ByteModel ByteSpec.
Import ListNotations.
Open Scope N_scope.

(* ---- the array as a queue ---- *)
Definition opStep (len : N) (a : arr) (o : op) : arr * Z := match o with Write x => awriteByte len a x | Read => areadByte len a end.
Fixpoint opRun (len : N) (a : arr) (ops : list op) : list (op * Z) :=
  match ops with [] => [] | o :: r => let '(a', z) := opStep len a o in (o, z) :: opRun len a' r end.

Lemma accepted_snoc h o z : accepted (h ++ [(o, z)]) = accepted h ++ match o with Write x => if (z =? 0)%Z then [x] else [] | Read => [] end.
Proof. unfold accepted. rewrite flat_map_app. cbn [flat_map]. rewrite app_nil_r. destruct o; reflexivity. Qed.
Lemma got_snoc h o z : got (h ++ [(o, z)]) = got h ++ match o with Read => if (0 <=? z)%Z then [Z.to_N z] else [] | Write _ => [] end.
Proof. unfold got. rewrite flat_map_app. cbn [flat_map]. rewrite app_nil_r. destruct o; reflexivity. Qed.
Lemma skipn_nth (l : list N) : forall n, (n < length l)%nat -> skipn n l = nth n l 0 :: skipn (S n) l.
Proof. induction l; intros [|n] H; cbn [length] in H; try lia; [reflexivity|]. cbn [skipn nth]. rewrite IHl by lia. reflexivity. Qed.

Definition inv (h : list (op * Z)) (a : arr) : Prop :=
  mWrite a = N.of_nat (length (accepted h)) /\ mRead a = N.of_nat (length (got h)) /\ mRead a <= mWrite a /\
  (forall i, (i < length (accepted h))%nat -> mData a (N.of_nat i) = nth i (accepted h) 0) /\
  got h = firstn (length (got h)) (accepted h).
Lemma firstn_S_nth (l : list N) : forall n, (n < length l)%nat -> firstn (S n) l = firstn n l ++ [nth n l 0].
Proof. induction l; intros [|n] H; cbn [length] in H; try lia; [reflexivity|]. change (firstn (S (S n)) (a :: l)) with (a :: firstn (S n) l). rewrite IHl by lia. reflexivity. Qed.
Lemma inv_step len h a o a' z : inv h a -> opStep len a o = (a', z) -> right_answer len h o z /\ inv (h ++ [(o, z)]) a'.
Proof.
  intros (HW & HR & HL & HD & HG) E. unfold right_answer. destruct o as [x|]; cbn [opStep] in E.
  - unfold awriteByte, stillRoom in E. rewrite HW in E. destruct (N.ltb_spec (N.of_nat (length (accepted h))) len) as [L|L]; injection E as <- <-.
    + split; [reflexivity|]. unfold inv. rewrite accepted_snoc, got_snoc. cbn [Z.eqb mWrite mRead mData]. rewrite app_length, app_nil_r. cbn [length].
      split; [lia|]. split; [assumption|]. split; [lia|]. split.
      * intros i Hi. destruct (N.eqb_spec (N.of_nat i) (N.of_nat (length (accepted h)))) as [Q|Q].
        -- replace i with (length (accepted h)) by lia. rewrite app_nth2, Nat.sub_diag by lia. reflexivity.
        -- rewrite app_nth1 by lia. apply HD. lia.
      * rewrite firstn_app. replace (length (got h) - length (accepted h))%nat with 0%nat by lia. cbn [firstn]. rewrite app_nil_r. exact HG.
    + split; [reflexivity|]. unfold inv. rewrite accepted_snoc, got_snoc. cbn [Z.eqb]. rewrite !app_nil_r. auto.
  - unfold areadByte, stillRoom in E. destruct (N.ltb_spec (mRead a) (mWrite a)) as [L|L].
    + injection E as <- <-. assert (Hl : (length (got h) < length (accepted h))%nat) by lia. rewrite (skipn_nth _ _ Hl). rewrite HR, HD by assumption.
      split; [reflexivity|]. unfold inv. rewrite accepted_snoc, got_snoc. cbn [mWrite mRead mData].
      replace (0 <=? Z.of_N (nth (length (got h)) (accepted h) 0%N))%Z with true by lia. rewrite N2Z.id, app_nil_r, app_length. cbn [length].
      split; [assumption|]. split; [lia|]. split; [lia|]. split; [assumption|]. rewrite Nat.add_1_r, firstn_S_nth by assumption. f_equal. exact HG.
    + rewrite skipn_all2 by lia. rewrite HW in E.
      destruct (N.ltb_spec (N.of_nat (length (accepted h))) len); injection E as <- <-; (split; [reflexivity|]); unfold inv;
        rewrite accepted_snoc, got_snoc; cbn [Z.leb Z.compare]; rewrite !app_nil_r; auto.
Qed.
Lemma run_inv len ops : forall a h, inv h a -> exists a', inv (h ++ opRun len a ops) a'.
Proof.
  induction ops as [|o ops IH]; intros a h H. { exists a. cbn. rewrite app_nil_r. exact H. }
  cbn [opRun]. destruct (opStep len a o) as [a1 z] eqn:E. destruct (inv_step _ _ _ _ _ _ H E) as (_ & H1).
  destruct (IH a1 _ H1) as (a' & H'). exists a'. rewrite <- app_assoc in H'. exact H'.
Qed.
Lemma run_right len ops : forall a h, inv h a -> forall pre o z post, opRun len a ops = pre ++ (o, z) :: post -> right_answer len (h ++ pre) o z.
Proof.
  induction ops as [|o0 ops IH]; intros a h H pre o z post E. { destruct pre; discriminate. }
  cbn [opRun] in E. destruct (opStep len a o0) as [a1 z0] eqn:S1. destruct (inv_step _ _ _ _ _ _ H S1) as (R & H1).
  destruct pre as [|p pre].
  - rewrite app_nil_r. injection E; intros; subst. exact R.
  - injection E as E1 E2. subst p. replace (h ++ (o0, z0) :: pre) with ((h ++ [(o0, z0)]) ++ pre) by (rewrite <- app_assoc; reflexivity). eapply IH; eassumption.
Qed.
Lemma inv0 : inv [] arr0.
Proof. unfold inv. cbn. repeat split; intros; lia. Qed.
(* every answer is right, and what was read is the beginning of what was taken *)
Theorem C92_queue : forall len ops, (forall pre o z post, opRun len arr0 ops = pre ++ (o, z) :: post -> right_answer len pre o z) /\
  exists rest, accepted (opRun len arr0 ops) = got (opRun len arr0 ops) ++ rest.
Proof.
  intros len ops. split. { intros pre o z post E. apply (run_right len ops arr0 [] inv0 _ _ _ _ E). }
  destruct (run_inv len ops arr0 [] inv0) as (a & _ & _ & _ & _ & G). cbn [app] in G. set (h := opRun len arr0 ops) in *.
  exists (skipn (length (got h)) (accepted h)). rewrite G at 1. symmetry. apply firstn_skipn.
Qed.
Print Assumptions C92_queue.
(* after reset the array is as new, whatever it was; reread gives the bytes again *)
Lemma run_ext len ops : forall a b, mWrite a = mWrite b -> mRead a = mRead b -> (forall i, i < mWrite a -> mData a i = mData b i) -> opRun len a ops = opRun len b ops.
Proof.
  induction ops as [|o ops IH]; intros a b HW HR HD; [reflexivity|]. cbn [opRun]. destruct o as [x|]; cbn [opStep].
  - unfold awriteByte, stillRoom. rewrite HW. destruct (mWrite b <? len); f_equal; apply IH; cbn [mWrite mRead mData]; try assumption; try reflexivity.
    intros i Hi. destruct (N.eqb_spec i (mWrite b)); [reflexivity|]. apply HD. lia.
  - unfold areadByte, stillRoom. rewrite HW, HR. destruct (N.ltb_spec (mRead b) (mWrite b)).
    + rewrite HD by lia. f_equal. apply IH; cbn [mWrite mRead mData]; try assumption; try reflexivity. intros; apply HD; lia.
    + destruct (mWrite b <? len); f_equal; apply IH; assumption.
Qed.
Theorem C92_reset : forall len a ops, opRun len (areset a) ops = opRun len arr0 ops.
Proof. intros. apply run_ext; try reflexivity. cbn. intros; lia. Qed.
Print Assumptions C92_reset.
Theorem C92_reread : forall len a, mWrite a <= len ->
  opRun len (areread a) (repeat Read (N.to_nat (mWrite a))) = map (fun i => (Read, Z.of_N (mData a (N.of_nat i)))) (seq 0 (N.to_nat (mWrite a))).
Proof.
  intros len a _. assert (G : forall n k b, mWrite b = mWrite a -> mData b = mData a -> mRead b = N.of_nat k -> N.of_nat k + N.of_nat n = mWrite a ->
    opRun len b (repeat Read n) = map (fun i => (Read, Z.of_N (mData a (N.of_nat i)))) (seq k n)).
  { induction n; intros k b HW HD HR HS; [reflexivity|]. cbn [repeat opRun opStep seq map]. unfold areadByte. rewrite HW, HR.
    replace (N.of_nat k <? mWrite a) with true by lia. rewrite HD. f_equal. apply IHn; cbn [mWrite mRead mData]; lia || reflexivity. }
  apply (G _ 0%nat); cbn [mWrite mRead mData areread]; lia || reflexivity.
Qed.
Print Assumptions C92_reread.
(* rewrite alone leaves the place of reading where it was: bytes written afterwards are passed over *)
Theorem C92_rewrite_refuted : ~ (forall len a ops, opRun len (arewrite a) ops = opRun len arr0 ops).
Proof. intros H. specialize (H 9 (mkArr 2 2 (fun _ => 7)) [Write 1; Read]). vm_compute in H. discriminate H. Qed.
Print Assumptions C92_rewrite_refuted.

(* ---- numerals ---- *)
Lemma digit_ok d : d < 36 -> digit (nth (N.to_nat d) digitChars 0) = Some d /\ (nth (N.to_nat d) digitChars 0 = 48 -> d = 0).
Proof.
  intros H. assert (A : forallb (fun k => match digit (nth k digitChars 0) with Some e => e =? N.of_nat k | None => false end
      && (negb (nth k digitChars 0 =? 48) || Nat.eqb k 0)) (seq 0 36) = true) by reflexivity.
  rewrite forallb_forall in A. specialize (A (N.to_nat d)). rewrite in_seq in A. specialize (A ltac:(lia)). apply andb_prop in A as (A & B).
  destruct (digit (nth (N.to_nat d) digitChars 0)) as [e|]; [|discriminate]. split; [f_equal; lia|]. intros Q. rewrite Q in B. cbn in B. lia.
Qed.
Lemma val_app base s t : forall acc, val base acc (s ++ t) = match val base acc s with Some v => val base v t | None => None end.
Proof. induction s; intros acc; [reflexivity|]. cbn [app val]. destruct (digit a); [|reflexivity]. destruct (n <? base); [apply IHs|reflexivity]. Qed.
Lemma numeral_snoc base n d s : 2 <= base -> base < 36 -> d < base -> 0 < n -> numeral base n s ->
  numeral base (n * base + d) (s ++ [nth (N.to_nat d) digitChars 0]).
Proof.
  intros Hb Hb2 Hd Hn (V & NE & Z0). split; [|split].
  - rewrite val_app, V. cbn [val]. destruct (digit_ok d) as (-> & _); [lia|]. replace (d <? base) with true by lia. reflexivity.
  - destruct s; discriminate.
  - destruct s as [|c s]; [congruence|]. cbn [app hd]. intros E. exfalso. specialize (Z0 E). injection Z0 as -> ->. cbn in V.
    replace (0 <? base) with true in V by lia. injection V as V. lia.
Qed.
Lemma size_div n base : 2 <= base -> base <= n -> (S (N.to_nat (N.size (n / base))) <= N.to_nat (N.size n))%nat.
Proof.
  intros Hb Hn. assert (n / base <> 0). { pose proof (N.div_le_mono base n base ltac:(lia) Hn). rewrite N.div_same in H by lia. lia. }
  assert (n / base <= n / 2) by (apply N.div_le_compat_l; lia).
  assert (N.log2 (n / base) + 1 <= N.log2 n).
  { pose proof (N.log2_le_mono _ _ H0) as M. rewrite <- N.div2_div, N.div2_spec, N.log2_shiftr in M.
    assert (1 <= N.log2 n) by (apply N.log2_le_pow2; cbn; lia). lia. }
  rewrite !N.size_log2 by lia. lia.
Qed.
Lemma printUb_ok {W} (wb : W -> N -> W) base : 2 <= base -> base < 36 -> forall fuel w n, 0 < n -> (N.to_nat (N.size n) < fuel)%nat ->
  exists s, printUb fuel wb w n base = Some (fold_left wb s w) /\ numeral base n s.
Proof.
  intros Hb Hb2. induction fuel as [|f IH]; intros w n Hn Hf; [lia|]. cbn [printUb].
  replace (n =? 0) with false by lia. replace (base =? 0) with false by lia.
  change (N.of_nat (length digitChars)) with 36. replace ((base <? 2) || (36 <=? base)) with false by lia.
  pose proof (N.div_mod n base ltac:(lia)) as D. pose proof (N.mod_lt n base ltac:(lia)) as M.
  destruct (N.leb_spec base n) as [L|L].
  - assert (0 < n / base). { pose proof (N.div_le_mono base n base ltac:(lia) L) as Q. rewrite N.div_same in Q by lia. lia. }
    pose proof (size_div n base Hb L). destruct (IH w (n / base)) as (s & -> & Nu); [assumption|lia|].
    exists (s ++ [nth (N.to_nat (n mod base)) digitChars 0]). rewrite fold_left_app. split; [reflexivity|].
    rewrite D at 1. rewrite (N.mul_comm base). apply numeral_snoc; assumption.
  - rewrite N.mod_small by assumption. exists [nth (N.to_nat n) digitChars 0]. split; [reflexivity|].
    destruct (digit_ok n) as (E & F); [lia|]. split; [|split].
    + cbn [val]. rewrite E. replace (n <? base) with true by lia. reflexivity.
    + discriminate.
    + cbn [hd]. intros Q. specialize (F Q). lia.
Qed.
Lemma numeral_zero base : 0 < base -> numeral base 0 (txt "0").
Proof. intros. split; [|split]; [|discriminate|reflexivity]. cbn. replace (0 <? base) with true by lia. reflexivity. Qed.
(* print writes the numeral of the number, in bases up to 35; 0 stands for 10 *)
Theorem C92_print_unsigned : forall W (wb : W -> N -> W) w n base, base = 0 \/ 2 <= base < 36 ->
  exists s, printU wb w n base = Some (fold_left wb s w) /\ numeral (if base =? 0 then 10 else base) n s.
Proof.
  intros W wb w n base Hb. unfold printU. destruct (N.eq_dec n 0) as [->|Hn].
  { exists (txt "0"). split; [reflexivity|]. apply numeral_zero. destruct (N.eqb_spec base 0); lia. }
  destruct Hb as [->|Hb].
  - cbn [N.eqb]. destruct (printUb_ok wb 10 ltac:(lia) ltac:(lia) (S (N.to_nat (N.size n))) w n) as (s & E & Nu); [lia|lia|].
    exists s. split; [|assumption]. rewrite <- E. cbn [printUb]. reflexivity.
  - replace (base =? 0) with false by lia. apply printUb_ok; lia.
Qed.
Print Assumptions C92_print_unsigned.
(* other bases are refused, unless the number is 0 *)
Theorem C92_base : forall W (wb : W -> N -> W) w n base, base = 1 \/ 36 <= base ->
  printU wb w n base = if n =? 0 then Some (wb w 48) else None.
Proof.
  intros W wb w n base Hb. unfold printU. cbn [printUb]. destruct (n =? 0); [reflexivity|]. replace (base =? 0) with false by lia.
  change (N.of_nat (length digitChars)) with 36. replace ((base <? 2) || (36 <=? base)) with true by lia. reflexivity.
Qed.
Print Assumptions C92_base.
Theorem C92_print_int : forall W (wb : W -> N -> W) w n, (- 2 ^ 31 <= n < 2 ^ 31)%Z ->
  exists s, printI wb w n = Some (fold_left wb s w) /\ int_numeral n s.
Proof.
  intros W wb w n Hn. unfold printI, int_numeral. destruct (Z.eqb_spec n (-2147483648)) as [->|Hm].
  { exists (txt "-2147483648"). split; [reflexivity|]. cbn [Z.ltb Z.compare]. exists (txt "2147483648"). split; [reflexivity|].
    split; [reflexivity|]. split; discriminate. }
  destruct (Z.ltb_spec n 0).
  - destruct (C92_print_unsigned W wb (printS wb w (txt "-")) (Z.to_N (- n)) 10 ltac:(lia)) as (s & E & Nu).
    exists (45 :: s). rewrite E. split; [reflexivity|]. exists s. split; [reflexivity|exact Nu].
  - destruct (C92_print_unsigned W wb w (Z.to_N n) 10 ltac:(lia)) as (s & E & Nu). exists s. split; assumption.
Qed.
Print Assumptions C92_print_int.
(* a numeral tells its number, and a number has one numeral *)
Lemma numeral_fun base n m s : numeral base n s -> numeral base m s -> n = m.
Proof. intros (V & _) (V' & _). rewrite V in V'. injection V'. auto. Qed.
Lemma digit_inj c c' d : digit c = Some d -> digit c' = Some d -> c = c'.
Proof.
  unfold digit. destruct ((48 <=? c) && (c <=? 57)) eqn:A, ((48 <=? c') && (c' <=? 57)) eqn:B;
  try destruct ((97 <=? c) && (c <=? 122)) eqn:C; try destruct ((97 <=? c') && (c' <=? 122)) eqn:D; try discriminate; intros E F; injection E; injection F; lia.
Qed.
Lemma val_snoc base acc s c n : val base acc (s ++ [c]) = Some n -> exists v d, val base acc s = Some v /\ digit c = Some d /\ d < base /\ n = v * base + d.
Proof.
  rewrite val_app. destruct (val base acc s) as [v|]; [|discriminate]. cbn [val]. destruct (digit c) as [d|]; [|discriminate].
  destruct (N.ltb_spec d base); [|discriminate]. intros E. injection E as <-. exists v, d. auto.
Qed.
Lemma val_nonzero base s : forall n, 0 < base -> val base 0 s = Some n -> s <> [] -> hd 0 s <> 48 -> 0 < n.
Proof.
  induction s as [|c s IH] using rev_ind; intros n Hb V NE Hz; [congruence|]. apply val_snoc in V as (v & d & V & D & Hd & ->).
  destruct s as [|c0 s].
  - cbn in V. injection V as <-. cbn in Hz. cbn [app] in *. assert (d <> 0). { intros ->. apply Hz. apply (digit_inj c 48 0); [assumption|reflexivity]. } lia.
  - assert (0 < v) by (apply IH; [assumption..|discriminate|exact Hz]). nia.
Qed.
Theorem C92_numeral_unique : forall base n s t, 0 < base -> numeral base n s -> numeral base n t -> s = t.
Proof.
  intros base n s t Hb. assert (G : forall s t n, val base 0 s = Some n -> val base 0 t = Some n -> hd 0 s <> 48 -> hd 0 t <> 48 -> s = t).
  { clear n s t. induction s as [|c s IH] using rev_ind; intros t n V V' Hs Ht.
    - cbn in V. injection V as <-. destruct t as [|c t]; [reflexivity|]. apply val_nonzero in V'; [lia|assumption|discriminate|assumption].
    - destruct t as [|c' t _] using rev_ind.
      { cbn in V'. injection V' as <-. apply val_nonzero in V; [lia|assumption| |assumption]. destruct s; discriminate. }
      apply val_snoc in V as (v & d & V & D & Hd & E). apply val_snoc in V' as (v' & d' & V' & D' & Hd' & E').
      assert (v = v' /\ d = d') as (<- & <-). { assert (v = v') by nia. subst v'. split; [reflexivity|lia]. }
      f_equal.
      + assert (Q : forall (u : list N) x, u <> [] -> hd 0 (u ++ x) = hd 0 u) by (intros [|? ?] x Hx; [congruence|reflexivity]).
        apply (IH t v V V').
        * destruct s; [discriminate|]. exact Hs.
        * destruct t; [discriminate|]. exact Ht.
      + f_equal. eapply digit_inj; eassumption. }
  intros (V & NE & Z0) (V' & NE' & Z0'). destruct (N.eq_dec (hd 0 s) 48) as [Q|Q], (N.eq_dec (hd 0 t) 48) as [Q'|Q'].
  - rewrite (Z0 Q), (Z0' Q'). reflexivity.
  - rewrite (Z0 Q) in V. cbn in V. replace (0 <? base) with true in V by lia. injection V as <-. pose proof (val_nonzero base t _ Hb V' NE' Q'). lia.
  - rewrite (Z0' Q') in V'. cbn in V'. replace (0 <? base) with true in V' by lia. injection V' as <-. pose proof (val_nonzero base s _ Hb V NE Q). lia.
  - eapply G; eassumption.
Qed.
Print Assumptions C92_numeral_unique.

(* ---- copying ---- *)
Lemma copy_gen {W} (wb : W -> N -> W) max : forall w s i k, Forall (fun b => b < 256) s -> (k <= length s)%nat ->
  let c := firstn max (skipn k s) in
  writeBytes max wb sreadByte w (mkStr s (N.of_nat k)) i = (fold_left wb c w, mkStr s (N.of_nat (k + length c)), i + N.of_nat (length c)).
Proof.
  induction max as [|m IH]; intros w s i k F Hk c. { cbn in c. unfold c. cbn. rewrite Nat.add_0_r, N.add_0_r. reflexivity. }
  cbn [writeBytes]. unfold sreadByte. cbn [m_string m_index]. destruct (N.leb_spec (N.of_nat (length s)) (N.of_nat k)) as [L|L].
  - unfold c. rewrite skipn_all2 by lia. cbn. rewrite Nat.add_0_r, N.add_0_r. reflexivity.
  - rewrite Nat2N.id. replace (Z.of_N (nth k s 0%N) <? 0)%Z with false by lia. rewrite N2Z.id.
    assert (nth k s 0 < 256) by (rewrite Forall_forall in F; apply F, nth_In; lia). rewrite N.mod_small by assumption.
    replace (N.of_nat k + 1) with (N.of_nat (S k)) by lia. rewrite IH by (assumption || lia).
    unfold c. rewrite (skipn_nth s k) by lia. change (firstn (S m) (nth k s 0 :: skipn (S k) s)) with (nth k s 0 :: firstn m (skipn (S k) s)).
    cbn [fold_left length]. f_equal; [f_equal|]; [f_equal|]; lia.
Qed.
(* bytes of a string are copied to any writer in their order, at most max of them, and counted *)
Theorem C92_copy : forall W (wb : W -> N -> W) w s max, Forall (fun b => b < 256) s ->
  writeBytes max wb sreadByte w (readFrom s) 0 = (fold_left wb (firstn max s) w, mkStr s (N.of_nat (Nat.min max (length s))), N.of_nat (Nat.min max (length s))).
Proof. intros. unfold readFrom. change 0 with (N.of_nat 0) at 1. rewrite copy_gen by (assumption || lia). cbn [skipn]. rewrite firstn_length. reflexivity. Qed.
Print Assumptions C92_copy.
(* the number returned is not that of the bytes the writer took *)
Theorem C92_copy_refuted : ~ (forall len s max, Forall (fun b => b < 256) s ->
  let '(w, _, n) := writeBytes max (fun w x => fst (awriteByte len w x)) sreadByte arr0 (readFrom s) 0 in n = mWrite w).
Proof. intros H. specialize (H 2 [1; 2; 3] 5%nat). vm_compute in H. assert (3 = 2) as Q by (apply H; repeat constructor). discriminate Q. Qed.
Print Assumptions C92_copy_refuted.

(* a Bool is printed as its number, one digit *)
Theorem C92_print_bool : forall W (wb : W -> N -> W) w (b : bool),
  exists s, printB wb w b = fold_left wb s w /\ numeral 10 (if b then 1 else 0) s.
Proof.
  intros W wb w []; [exists [49] | exists [48]]; (split; [reflexivity|]); (split; [reflexivity|]); (split; [discriminate|]); intros H;
    (discriminate H || reflexivity).
Qed.
Print Assumptions C92_print_bool.

(* a run with a full array; numbers in several bases; copying five of a string *)
Definition text_of (o : option (list N)) : option (list N) := option_map (@rev N) o.
Definition push (l : list N) (x : N) : list N := x :: l.
Example C92_ex : map snd (opRun 3 arr0 [Read; Write 7; Write 8; Read; Write 9; Write 10; Read; Read; Read]) = [-2; 0; 0; 7; 0; -1; 8; 9; -1]%Z /\
  text_of (printU push [] 255 16) = Some (txt "ff") /\ text_of (printU push [] 4294967295 0) = Some (txt "4294967295") /\
  text_of (printU push [] 37 35) = Some (txt "12") /\ printU push [] 37 36 = None /\ text_of (printU push [] 0 99) = Some (txt "0") /\
  text_of (printI push [] (-40)) = Some (txt "-40") /\ text_of (printI push [] (-2147483648)) = Some (txt "-2147483648") /\
  writeBytes 5 push sreadByte [] (readFrom (txt "hello world")) 0 = (rev (txt "hello"), mkStr (txt "hello world") 5, 5) /\
  printB push [] true = txt "1".
Proof. repeat (split; [vm_compute; reflexivity|]). vm_compute. reflexivity. Qed.
