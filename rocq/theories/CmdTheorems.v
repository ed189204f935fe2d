(* CmdTheorems.v: the command line (C106). *)
From Coq Require Import String List Arith NArith Bool Lia.
From Coq Require Import ZifyBool ZifyN ZifyNat.
From Verif Require Import Base SourceStreamModel CmdModel CmdSpec.
Import ListNotations.
Open Scope N_scope.
Opaque txt.

Lemma teq_spec : forall a b, reflect (a = b) (teq a b).
Proof. intros a b. unfold teq. destruct (list_eq_dec N.eq_dec a b); constructor; auto. Qed.
Lemma prefix_spec : forall a b, prefix a b = true <-> exists r, b = a ++ r.
Proof.
  induction a as [|x a IH]; intros b; cbn; [split; eauto|]. destruct b as [|y b]; [split; [discriminate|intros (r & E); discriminate]|].
  rewrite andb_true_iff, N.eqb_eq, IH. split; [intros [-> (r & ->)]; eauto|intros (r & E); injection E as -> ->; eauto].
Qed.
Lemma EndsWith_spec : forall v e, EndsWith v e = true <-> exists n, v = n ++ e.
Proof.
  intros v e. unfold EndsWith. destruct (Nat.ltb_spec (List.length v) (List.length e)) as [L|L].
  - split; [discriminate|]. intros (n & ->). rewrite app_length in L. lia.
  - rewrite prefix_spec. split; intros (r & E).
    + exists (rev r). apply (f_equal (@rev N)) in E. rewrite rev_involutive, rev_app_distr, rev_involutive in E. auto.
    + exists (rev r). subst v. apply rev_app_distr.
Qed.

Lemma isalnum_true : forall c, isalnum c = Some true <-> letter_or_digit c.
Proof.
  intros c. unfold isalnum, letter_or_digit. destruct (N.ltb_spec c 128); [|split; [discriminate|lia]].
  split; [intros E; injection E as E; lia|intros E; f_equal; lia].
Qed.
Lemma allAlnum_done : forall s u, allAlnum s = Done u <-> Forall letter_or_digit s.
Proof.
  intros s []. induction s as [|c s IH]; cbn; [split; auto|]. rewrite Forall_cons_iff, <- IH, <- isalnum_true.
  destruct (isalnum c) as [[]|]; intuition (try discriminate; auto).
Qed.
Lemma class_alnum : forall n, class_name n <-> exists c r, n = c :: r /\ Forall letter_or_digit n /\ (c <? 65) || (90 <? c) = false.
Proof.
  intros n. split; intros (c & r & -> & A & B); exists c, r; unfold capital, letter_or_digit in *.
  - (split; [auto|]). split; [constructor; [lia|auto]|lia].
  - (split; [auto|]). apply Forall_cons_iff in A. split; [lia|tauto].
Qed.

Lemma class_no_ext : forall n m, class_name n -> n <> m ++ EXT.
Proof.
  intros n m H E. apply class_alnum in H as (c & r & _ & H & _). rewrite E in H. apply Forall_app in H as [_ H].
  unfold EXT in H. Transparent txt. cbn in H. Opaque txt. apply Forall_cons_iff in H as [H _]. unfold letter_or_digit in H. lia.
Qed.

Lemma AddClassName_spec : forall a f, AddClassName a = Done f <-> names_file a f.
Proof.
  intros a f. unfold AddClassName, names_file. change (txt ".ulam") with EXT.
  assert (H : forall n, match n with [] => Died | c0 :: _ => match allAlnum n with Died => Died | Undefined => Undefined
     | Done _ => if (c0 <? 65) || (90 <? c0) then Died else Done (n ++ EXT) end end = Done f <-> class_name n /\ f = n ++ EXT).
  { intros n. rewrite class_alnum. destruct n as [|c r]; [split; [discriminate|intros [(c & r & E & _) _]; discriminate]|].
    destruct (allAlnum (c :: r)) as [u| |] eqn:A.
    - pose proof A as A'. apply allAlnum_done in A. destruct ((c <? 65) || (90 <? c)) eqn:C.
      + split; [discriminate|]. intros [(c' & r' & E & _ & F) _]. injection E as <- <-. congruence.
      + split; [intros E; injection E as <-; eauto 6|intros [_ ->]; auto].
    - split; [discriminate|]. intros [(c' & r' & E & F & _) _]. apply (allAlnum_done _ tt) in F. congruence.
    - split; [discriminate|]. intros [(c' & r' & E & F & _) _]. apply (allAlnum_done _ tt) in F. congruence. }
  destruct (EndsWith a EXT) eqn:E.
  - apply EndsWith_spec in E as (n & ->). rewrite app_length, Nat.add_sub, firstn_app, Nat.sub_diag, firstn_all, app_nil_r.
    rewrite H. split; [intros [C ->]; eauto|]. intros (m & C & -> & [X|X]).
    + exfalso. symmetry in X. exact (class_no_ext m n C X).
    + apply app_inv_tail in X. subst m. auto.
  - rewrite H. split; [intros [C ->]; eauto|]. intros (m & C & -> & [->|X]); [auto|].
    assert (EndsWith a EXT = true) by (apply EndsWith_spec; eauto). congruence.
Qed.

Lemma names_dash : forall a f, names_file a f -> match a with c :: _ => c =? 45 | [] => false end = false.
Proof.
  intros a f (n & (c & r & -> & C & _) & -> & [->| ->]); unfold capital in C; cbn; lia.
Qed.
Lemma names_switch : forall a f s, names_file a f -> match s with c :: _ => c =? 45 | [] => false end = true -> teq a s = false.
Proof. intros a f s H D. apply names_dash in H. destruct (teq_spec a s); [subst; congruence|auto]. Qed.

(* the setting s with what the rest of the line adds *)
Definition adds (s : setting) (out : option text) (ds fs : list text) (g : bool) : setting :=
  mkSet (match out with Some d => Some d | None => outdir s end) (dirs s ++ ds) (files s ++ fs) (g || debug s).
Lemma adds_nil : forall s, adds s None [] [] false = s.
Proof. intros [o d f g]. unfold adds. cbn. rewrite !app_nil_r. reflexivity. Qed.

Definition is_none {A} (o : option A) : bool := match o with None => true | Some _ => false end.

(* the classes at the end *)
Lemma loop_classes : forall l fs b s, Forall2 names_file l fs -> args_loop l b s = Run (adds s None [] fs false).
Proof.
  intros l fs b s H. revert b s. induction H as [|a f l fs H HS IH]; intros b s; cbn [args_loop]; [rewrite adds_nil; auto|].
  rewrite (names_dash a f H), andb_false_l. rewrite !(names_switch a f _ H) by reflexivity.
  apply AddClassName_spec in H. rewrite H, IH. unfold adds. cbn. rewrite <- app_assoc. reflexivity.
Qed.
Lemma loop_classes_inv : forall l s s', args_loop l true s = Run s' -> exists fs, Forall2 names_file l fs /\ s' = adds s None [] fs false.
Proof.
  induction l as [|a l IH]; intros s s' E; cbn [args_loop] in E; [injection E as <-; exists []; rewrite adds_nil; auto|].
  rewrite andb_true_r in E. destruct (match a with c :: _ => c =? 45 | [] => false end) eqn:D; [discriminate|].
  assert (N : forall t, match t with c :: _ => c =? 45 | [] => false end = true -> teq a t = false) by (intros t T; destruct (teq_spec a t); [subst; congruence|auto]).
  rewrite !N in E by reflexivity. destruct (AddClassName a) as [f| |] eqn:A; try discriminate. apply AddClassName_spec in A.
  apply IH in E as (fs & F & ->). exists (f :: fs). split; [constructor; auto|]. unfold adds. cbn. rewrite <- app_assoc. reflexivity.
Qed.

Lemma reads_loop : forall o l out ds fs g, reads o l out ds fs g -> forall s, o = is_none (outdir s) \/ out = None /\ o = false ->
  args_loop l false s = Run (adds s out ds fs g).
Proof.
  intros o l out ds fs g H. induction H as [o l fs H|d l ds fs g H IH|o d l out ds fs g H IH|o l out ds fs g H IH]; intros s O.
  - apply loop_classes; auto.
  - cbn [args_loop]. destruct O as [O|[O _]]; [|discriminate]. destruct (outdir s) eqn:OS; [discriminate|].
    destruct (teq_spec (txt "-o") (txt "-h")); [discriminate|]. destruct (teq_spec (txt "-o") (txt "-V")); [discriminate|].
    destruct (teq_spec (txt "-o") (txt "-o")); [|congruence]. rewrite andb_false_r.
    rewrite IH by auto. unfold adds. cbn. reflexivity.
  - cbn [args_loop]. destruct (teq_spec (txt "-i") (txt "-h")); [discriminate|]. destruct (teq_spec (txt "-i") (txt "-V")); [discriminate|].
    destruct (teq_spec (txt "-i") (txt "-o")); [discriminate|]. destruct (teq_spec (txt "-i") (txt "-i")); [|congruence]. rewrite andb_false_r.
    rewrite IH by auto. unfold adds. cbn. rewrite <- app_assoc. reflexivity.
  - cbn [args_loop]. destruct (teq_spec (txt "-g") (txt "-h")); [discriminate|]. destruct (teq_spec (txt "-g") (txt "-V")); [discriminate|].
    destruct (teq_spec (txt "-g") (txt "-o")); [discriminate|]. destruct (teq_spec (txt "-g") (txt "-i")); [discriminate|].
    destruct (teq_spec (txt "-g") (txt "-g")); [|congruence]. rewrite andb_false_r.
    rewrite IH by auto. unfold adds. cbn. rewrite orb_true_r. reflexivity.
Qed.

Lemma loop_reads : forall n l s s', (List.length l <= n)%nat -> args_loop l false s = Run s' ->
  (exists out ds fs g, reads (is_none (outdir s)) l out ds fs g /\ s' = adds s out ds fs g) \/
  (exists l' ds g, l = l' ++ [txt "-o"] /\ outdir s = None /\ reads false l' None ds [] g /\ s' = adds s None ds [] g).
Proof.
  induction n as [|n IH]; intros l s s' L E.
  { destruct l; [|cbn in L; lia]. cbn in E. injection E as <-. left. exists None, [], [], false. rewrite adds_nil. split; auto. constructor; auto. }
  destruct l as [|a l]; cbn [args_loop] in E.
  { injection E as <-. left. exists None, [], [], false. rewrite adds_nil. split; auto. constructor; auto. }
  rewrite andb_false_r in E. cbn [length] in L.
  destruct (teq_spec a (txt "-h")); [discriminate|]. destruct (teq_spec a (txt "-V")); [discriminate|].
  destruct (teq_spec a (txt "-o")) as [->|].
  { destruct (outdir s) eqn:OS; [discriminate|]. destruct l as [|d l].
    - injection E as <-. right. exists [], [], false. rewrite adds_nil. repeat split; auto. constructor; auto.
    - cbn [length] in L. apply IH in E as [(out & ds & fs & g & R & ->)|(l' & ds & g & -> & O & _)]; [|discriminate|lia].
      cbn [outdir is_none] in R. left. assert (out = None) as ->. { clear - R. remember false as o eqn:Q. induction R; auto; discriminate. }
      exists (Some d), ds, fs, g. split; [constructor; auto|]. unfold adds. cbn. reflexivity. }
  destruct (teq_spec a (txt "-i")) as [->|].
  { destruct l as [|d l]; [discriminate|]. cbn [length] in L. apply IH in E as [(out & ds & fs & g & R & ->)|(l' & ds & g & -> & O & R & ->)]; [| |lia].
    - cbn [outdir] in R. left. exists out, (d :: ds), fs, g. split; [constructor; auto|]. unfold adds. cbn. rewrite <- app_assoc. reflexivity.
    - cbn [outdir] in O. right. exists (txt "-i" :: d :: l'), (d :: ds), g. repeat split; auto; [constructor; auto|]. unfold adds. cbn. rewrite <- app_assoc. reflexivity. }
  destruct (teq_spec a (txt "-g")) as [->|].
  { apply IH in E as [(out & ds & fs & g & R & ->)|(l' & ds & g & -> & O & R & ->)]; [| |lia].
    - cbn [outdir] in R. left. exists out, ds, fs, true. split; [econstructor; eauto|]. unfold adds. cbn. rewrite orb_true_r. reflexivity.
    - cbn [outdir] in O. right. exists (txt "-g" :: l'), ds, true. repeat split; auto; [econstructor; eauto|]. unfold adds. cbn. rewrite orb_true_r. reflexivity. }
  destruct (match a with c :: _ => c =? 45 | [] => false end) eqn:D; [discriminate|].
  destruct (AddClassName a) as [f| |] eqn:A; try discriminate. apply AddClassName_spec in A.
  apply loop_classes_inv in E as (fs & F & ->). left. exists None, [], (f :: fs), false. split; [constructor; constructor; auto|].
  unfold adds. cbn. rewrite <- app_assoc. reflexivity.
Qed.

Lemma main_loop : forall l, main l = args_loop l false (mkSet None [] [txt "UrSelf.ulam"] false).
Proof. intros l. unfold main. replace (AddClassName (txt "UrSelf.ulam")) with (Done (txt "UrSelf.ulam")) by reflexivity. reflexivity. Qed.

(* C106: a command line in the form of the usage is taken as it is meant: the directories and the classes in their order,
   UrSelf before them, each file name with one suffix whether it was written or not *)
Theorem C106_accepts : forall l out ds fs g, reads true l out ds fs g ->
  main l = Run (mkSet out ds (txt "UrSelf.ulam" :: fs) g).
Proof.
  intros l out ds fs g R. rewrite main_loop, (reads_loop _ _ _ _ _ _ R) by (left; reflexivity). unfold adds. cbn.
  rewrite orb_false_r. destruct out; reflexivity.
Qed.
Print Assumptions C106_accepts.

(* C106: nothing else is compiled, except that a last -o without a directory is taken for nothing *)
Theorem C106_only_partial : forall l s, main l = Run s -> exists out ds fs g, s = mkSet out ds (txt "UrSelf.ulam" :: fs) g /\
  (reads true l out ds fs g \/ exists l', l = l' ++ [txt "-o"] /\ out = None /\ fs = [] /\ reads false l' None ds [] g).
Proof.
  intros l s E. rewrite main_loop in E. apply (loop_reads (List.length l)) in E as [(out & ds & fs & g & R & ->)|(l' & ds & g & -> & _ & R & ->)]; auto.
  - exists out, ds, fs, g. split; [|left; exact R]. unfold adds. cbn. rewrite orb_false_r. destruct out; reflexivity.
  - exists None, ds, [], g. split; [|right; exists l'; auto]. unfold adds. cbn. rewrite orb_false_r. reflexivity.
Qed.
Print Assumptions C106_only_partial.

(* refuted: that a switch without its argument is refused; -o is ignored, -i undefined *)
Theorem C106_o_refuted : main [txt "-o"] = Run (mkSet None [] [txt "UrSelf.ulam"] false) /\
  ~ exists out ds fs g, reads true [txt "-o"] out ds fs g.
Proof.
  split; [reflexivity|]. intros (out & ds & fs & g & R). inversion R as [o l fs' H| | |]; subst.
  inversion H as [|a f l fs' N HS]; subst. apply names_dash in N. discriminate.
Qed.
Print Assumptions C106_o_refuted.
Theorem C106_i_refuted : main [txt "-i"] = Undef.
Proof. reflexivity. Qed.
Print Assumptions C106_i_refuted.

Lemma AddClassName_undef : forall a, AddClassName a = Undefined -> exists c, In c a /\ 128 <= c.
Proof.
  intros a. unfold AddClassName.
  assert (H : forall n, (forall c, In c n -> In c a) -> match n with [] => Died | c0 :: _ => match allAlnum n with Died => Died | Undefined => Undefined
     | Done _ => if (c0 <? 65) || (90 <? c0) then Died else Done (n ++ EXT) end end = Undefined -> exists c, In c a /\ 128 <= c).
  { intros n IN. assert (HA : allAlnum n = Undefined -> exists c, In c n /\ 128 <= c).
    { clear. induction n as [|c n IH]; cbn; [discriminate|]. destruct (isalnum c) as [[]|] eqn:I; try discriminate.
      - intros E. destruct (IH E) as (x & X & L). eauto.
      - intros _. exists c. unfold isalnum in I. destruct (N.ltb_spec c 128); [discriminate|auto]. }
    destruct n as [|c0 r]; [discriminate|]. destruct (allAlnum (c0 :: r)); try discriminate; [destruct ((c0 <? 65) || (90 <? c0)); discriminate|].
    intros _. destruct (HA eq_refl) as (c & C & L). eauto. }
  apply H. destruct (EndsWith a EXT); auto. intros c C. rewrite <- (firstn_skipn (Nat.sub (List.length a) (List.length EXT)) a). apply in_or_app. auto.
Qed.

(* C106: the compiler is undefined for no other line than one that ends in -i or has a byte that is no ASCII *)
Theorem C106_undefined : forall l, main l = Undef -> (exists l', l = l' ++ [txt "-i"]) \/ exists a c, In a l /\ In c a /\ 128 <= c.
Proof.
  intros l. rewrite main_loop.
  assert (H : forall n l b s, (List.length l <= n)%nat -> args_loop l b s = Undef ->
    (exists l', l = l' ++ [txt "-i"]) \/ exists a c, In a l /\ In c a /\ 128 <= c).
  { clear l. induction n as [|n IH]; intros l b s L E; (destruct l as [|a l]; [discriminate|]); cbn [List.length] in L; [lia|].
    assert (W : forall r x, (exists l', r = l' ++ [txt "-i"]) \/ (exists a c, In a r /\ In c a /\ 128 <= c) ->
      (exists l', x ++ r = l' ++ [txt "-i"]) \/ (exists a c, In a (x ++ r) /\ In c a /\ 128 <= c)).
    { intros r x [(l' & ->)|(a' & c & A & C)]; [left; exists (x ++ l'); apply app_assoc|right; exists a', c; split; auto; apply in_or_app; auto]. }
    cbn [args_loop] in E. destruct (match a with c :: _ => c =? 45 | [] => false end && b); [discriminate|].
    destruct (teq a (txt "-h")); [discriminate|]. destruct (teq a (txt "-V")); [discriminate|].
    destruct (teq a (txt "-o")).
    { destruct (outdir s); [discriminate|]. destruct l as [|d l]; [discriminate|]. apply (W l [a; d]). eapply IH; [|eauto]. cbn [List.length] in L. lia. }
    destruct (teq_spec a (txt "-i")) as [->|].
    { destruct l as [|d l]; [left; exists []; reflexivity|]. apply (W l [txt "-i"; d]). eapply IH; [|eauto]. cbn [List.length] in L. lia. }
    destruct (teq a (txt "-g")). { apply (W l [a]). eapply IH; [|eauto]. lia. }
    destruct (match a with c :: _ => c =? 45 | [] => false end); [discriminate|].
    destruct (AddClassName a) as [f| |] eqn:A; [|discriminate|].
    - apply (W l [a]). eapply IH; [|eauto]. lia.
    - apply AddClassName_undef in A as (c & C & L2). right. exists a, c. split; [left; auto|auto]. }
  apply (H (List.length l)). lia.
Qed.
Print Assumptions C106_undefined.

(* C106: a source file is read from the first of the current directory, the directories of -i in their order and the
   directory of the library that has it; an absolute name stands for itself *)
Theorem C106_search : forall fopen share s path, (forall p, path <> 47 :: p) ->
  first_with (fun p => fopen p READ) path (txt "." :: dirs s ++ match share with Some d => [d ++ txt "/ulam/stdlib"] | None => [] end)
    (open fopen srcDir (readDirs share s) path READ).
Proof.
  intros fopen share s path A. unfold open, readDirs, srcDir.
  replace (match path with c :: _ => c =? 47 | [] => false end) with false.
  2: { destruct path as [|c p]; auto. destruct (N.eqb_spec c 47); auto. subst. exfalso. exact (A p eq_refl). }
  cbn [negb]. destruct (fopen (txt "." ++ txt "/" ++ path) READ) eqn:F; [constructor; auto|]. apply FW_later; auto.
  assert (H : forall l, first_with (fun p => fopen p READ) path l (tryDirs fopen l path)); [|apply H].
  induction l as [|d l IH]; cbn [tryDirs]; [constructor|]. destruct (fopen (d ++ txt "/" ++ path) READ) eqn:F2; [constructor; auto|apply FW_later; auto].
Qed.
Print Assumptions C106_search.
Theorem C106_absolute : forall fopen dir others p m r, open fopen dir others (47 :: p) m = Some r -> r = 47 :: p.
Proof.
  intros fopen dir others p m r. unfold open. rewrite N.eqb_refl. cbn [negb]. destruct (fopen (47 :: p) m); [congruence|destruct m; discriminate].
Qed.
Print Assumptions C106_absolute.

(* C106: output goes to the output directory only: the one of -o, or the current one *)
Theorem C106_output : forall fopen s others path r, (forall p, path <> 47 :: p) -> outdir s <> Some [] ->
  open fopen (SetOutputDir s) others path WRITE = Some r ->
  r = match outdir s with Some d => d | None => txt "." end ++ txt "/" ++ path.
Proof.
  intros fopen s others path r A NE. unfold open.
  replace (match path with c :: _ => c =? 47 | [] => false end) with false.
  2: { destruct path as [|c p]; auto. destruct (N.eqb_spec c 47); auto. subst. exfalso. exact (A p eq_refl). }
  assert (SetOutputDir s = match outdir s with Some d => d | None => txt "." end) as ->.
  { unfold SetOutputDir. destruct (outdir s) as [[|c d]|]; auto. contradiction. }
  destruct (fopen _ WRITE); [intros E; injection E as <-; reflexivity|discriminate].
Qed.
Print Assumptions C106_output.

Example C106_ex : let l := [txt "-g"; txt "-i"; txt "lib"; txt "-o"; txt "out"; txt "-i"; txt "-h"; txt "Foo"; txt "B2.ulam"] in
  reads true l (Some (txt "out")) [txt "lib"; txt "-h"] [txt "Foo.ulam"; txt "B2.ulam"] true /\
  main l = Run (mkSet (Some (txt "out")) [txt "lib"; txt "-h"] [txt "UrSelf.ulam"; txt "Foo.ulam"; txt "B2.ulam"] true) /\
  main [txt "Foo"; txt "-g"] = Die /\ main [txt "foo"] = Die /\ main [txt "-o"; txt "a"; txt "-o"; txt "b"] = Die /\
  open (fun p _ => teq p (txt "lib/Foo.ulam")) srcDir (readDirs None (mkSet None [txt "x"; txt "lib"] [] false)) (txt "Foo.ulam") READ = Some (txt "lib/Foo.ulam") /\
  (forall p, txt "Foo.ulam" <> 47 :: p).
Proof.
  cbv zeta. Transparent txt. split; [|vm_compute; repeat split; intros; discriminate]. eapply R_g, R_i, R_o, R_i, R_classes.
  constructor; [|constructor; [|constructor]].
  - exists (txt "Foo"). split; [exists 70, (txt "oo"); split; [reflexivity|]|split; [reflexivity|left; reflexivity]].
    split; [unfold capital; lia|]. cbn. repeat (apply Forall_cons; [unfold letter_or_digit; lia|]). apply Forall_nil.
  - exists (txt "B2"). split; [exists 66, (txt "2"); split; [reflexivity|]|split; [reflexivity|right; reflexivity]].
    split; [unfold capital; lia|]. cbn. repeat (apply Forall_cons; [unfold letter_or_digit; lia|]). apply Forall_nil.
Qed.
