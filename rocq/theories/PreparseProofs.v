(* PreparseProofs.v: lemmas about the preparser. *)
From Coq Require Import String List NArith ZArith Lia Bool.
From Coq Require Import ZifyBool ZifyNat ZifyN.
From Verif Require Import Base PreparseModel PreparseSpec.
Import ListNotations.
Ltac Zify.zify_post_hook ::= Z.div_mod_to_equations.
Open Scope N_scope.

(* ---- numerals ---- *)
Lemma dig_char d : d < 16 -> dig (digit_char d) = d.
Proof.
  intros H. assert (d = 0 \/ d = 1 \/ d = 2 \/ d = 3 \/ d = 4 \/ d = 5 \/ d = 6 \/ d = 7 \/ d = 8 \/ d = 9 \/ d = 10 \/ d = 11 \/ d = 12 \/ d = 13 \/ d = 14 \/ d = 15) as HD by lia.
  repeat (destruct HD as [-> | HD]; [reflexivity|]). subst d. reflexivity.
Qed.
Lemma digits_of_map b ds : b <= 16 -> Forall (fun x => x < b) ds -> forall acc,
  digits_of b acc (map digit_char ds) = (fold_left (fun a d => a * b + d) ds acc, []).
Proof.
  intros Hb. induction 1 as [|d ds Hd Hds IH]; intros acc; auto. cbn [map digits_of fold_left].
  rewrite dig_char by lia. replace (d <? b) with true by lia. apply IH.
Qed.
Lemma strtol0_other c r : c <> 48 -> strtol0 (c :: r) = let '(v, r') := digits_of 10 0 (c :: r) in (N.min v (2 ^ 63 - 1), r').
Proof. intros H. unfold strtol0. destruct c as [|p]; [reflexivity|]. repeat (destruct p as [p|p|]; try reflexivity). congruence. Qed.
Lemma strtol0_denotes s v : denotes s v -> s <> [] /\ strtol0 s = (N.min v (2 ^ 63 - 1), []).
Proof.
  intros H. destruct H as [d ds Hd HF | ds HF | ds HN HF].
  - split; [discriminate|]. pose proof (digits_of_map 10 (d :: ds) ltac:(lia) HF 0) as E. fold (dval 10 (d :: ds)) in E.
    assert (d < 10) as Hd' by (inversion HF; auto).
    cbn [map] in E |- *. rewrite strtol0_other by (unfold digit_char; replace (d <? 10) with true by lia; lia). rewrite E. reflexivity.
  - split; [discriminate|]. pose proof (digits_of_map 8 (0 :: ds) ltac:(lia) ltac:(constructor; [lia|exact HF]) 0) as E.
    change (fold_left (fun a d => a * 8 + d) (0 :: ds) 0) with (dval 8 ds) in E. unfold strtol0. change (txt "0" ++ map digit_char ds) with (map digit_char (0 :: ds)).
    destruct ds as [|x [|y ds]]; cbn [map] in *; change (digit_char 0) with 48 in *.
    + rewrite E. reflexivity.
    + rewrite E. reflexivity.
    + assert (x < 8) as Hx by (inversion HF; auto).
      replace ((digit_char x =? 120) || (digit_char x =? 88)) with false by (unfold digit_char; replace (x <? 10) with true by lia; lia). cbn [andb].
      rewrite E. reflexivity.
  - split; [discriminate|]. destruct ds as [|d ds]; [congruence|]. pose proof (digits_of_map 16 (d :: ds) ltac:(lia) HF 0) as E. fold (dval 16 (d :: ds)) in E.
    assert (d < 16) as Hd by (inversion HF; auto).
    unfold strtol0. change (txt "0x" ++ map digit_char (d :: ds)) with (48 :: 120 :: digit_char d :: map digit_char ds). cbv beta iota.
    change ((120 =? 120) || (120 =? 88)) with true. rewrite dig_char by lia. replace (d <? 16) with true by lia. cbn [andb].
    change (digit_char d :: map digit_char ds) with (map digit_char (d :: ds)). rewrite E. reflexivity.
Qed.
Lemma versionOf_denotes s v : denotes s v -> v < 2 ^ 32 -> versionOf s = if v <=? 5 then Some v else None.
Proof.
  intros H Hv. destruct (strtol0_denotes s v H) as [HN E]. unfold versionOf. rewrite E. destruct s as [|c s]; [congruence|].
  replace (N.min v (2 ^ 63 - 1)) with v by lia. rewrite N.mod_small by lia. reflexivity.
Qed.
Lemma denotes_unique s v w : denotes s v -> denotes s w -> v < 2 ^ 32 -> w < 2 ^ 32 -> v = w.
Proof.
  intros H H' Hv Hw. destruct (strtol0_denotes s v H) as [_ E], (strtol0_denotes s w H') as [_ E'].
  assert (N.min v (2 ^ 63 - 1) = N.min w (2 ^ 63 - 1)) by congruence. lia.
Qed.

(* ---- more fuel does no harm ---- *)
Lemma package_mono n : forall m acc st r, (n <= m)%nat -> packageName n acc st = Some r -> packageName m acc st = Some r.
Proof.
  induction n as [|n IH]; intros m acc st r HM E; [discriminate|]. destruct m as [|m]; [lia|]. cbn [packageName] in *.
  destruct (lex st) as [[t ok] st1]. destruct (negb ok); auto. destruct t; auto; apply (IH m); auto; lia.
Qed.
Lemma get_mono fs n : forall m st, (n <= m)%nat -> getNextToken n fs st <> POut -> getNextToken m fs st = getNextToken n fs st.
Proof.
  induction n as [|n IH]; intros m st HM HN; [cbn in HN; congruence|]. destruct m as [|m]; [lia|]. assert (n <= m)%nat as HM' by lia.
  cbn [getNextToken] in *.
  destruct (if pp_un st then _ else _) as [t st1]. destruct t; auto.
  - destruct (packageName n [] st1) as [[[ok name] st2]|] eqn:E; [|congruence]. rewrite (package_mono n m _ _ _ HM' E).
    destruct (ok && fexists fs name st2); auto.
  - destruct (packageName n [] st1) as [[[ok name] st2]|] eqn:E; [|congruence]. rewrite (package_mono n m _ _ _ HM' E).
    destruct (if ok then _ else _) as [[ok' name'] st3]. destruct ok'; auto. destruct (push fs name' false st3); auto.
  - destruct (getNextToken n fs st1) as [| |nt ok st2] eqn:E1; [congruence| |].
    + rewrite (IH m) by (auto; congruence). rewrite E1. reflexivity.
    + rewrite (IH m st1) by (auto; congruence). rewrite E1.
      destruct (match nt with TNumber s => _ | _ => _ end) as [[good st3]|]; auto.
      destruct (getNextToken n fs st3) as [| |q ok2 st4] eqn:E2; [congruence| |].
      * rewrite (IH m) by (auto; congruence). rewrite E2. reflexivity.
      * rewrite (IH m st3) by (auto; congruence). rewrite E2. destruct good; auto. destruct q; auto.
Qed.
Lemma drain_mono fs n : forall m st o, (n <= m)%nat -> drain n fs st = Some o -> drain m fs st = Some o.
Proof.
  induction n as [|n IH]; intros m st o HM E; [discriminate|]. destruct m as [|m]; [lia|]. cbn [drain] in *.
  destruct (getNextToken n fs st) as [| |t ok st1] eqn:E1; try discriminate.
  rewrite (get_mono fs n) by (try lia; congruence). rewrite E1. destruct t; auto; (destruct (drain n fs st1) as [o1|] eqn:E2; [|discriminate]; rewrite (IH m st1 o1) by (auto; lia); auto).
Qed.

(* ---- item by item ---- *)
Section Src.
Variable src : sources.
Hypothesis HS : sources_ok src.
Let fs := files src.

(* the next thing to read in file f is its f; nothing is unread; every registered file is there *)
Definition aligned (st : pst) (stk : list text) (its : text -> list item) : Prop :=
  open_files st = stk /\ lx_un st = false /\ pp_un st = false /\
  (forall f, In f stk -> rem st f = mkFile (prints (its f)) false /\ Forall item_ok (its f)) /\
  (forall f, registered_b st f = true -> src f <> None).

Lemma upd_same A (m : text -> A) f v : upd m f v f = v.
Proof. unfold upd. rewrite text_eqb_refl. reflexivity. Qed.
Lemma upd_other A (m : text -> A) f g v : f <> g -> upd m f v g = m g.
Proof. intros H. unfold upd. destruct (text_eqb f g) eqn:E; auto. apply text_eqb_eq in E. congruence. Qed.

(* what a run through the files gives *)
Inductive tr : list text -> (text -> list item) -> list rtok -> Prop :=
| tr_end its : tr [] its []
| tr_pop f s its o : its f = [] -> tr s its o -> tr (f :: s) its o
| tr_plain f s its t r o : its f = IPlain t :: r -> tr (f :: s) (upd its f r) o -> tr (f :: s) its (t :: o)
| tr_use f s its ws r o : its f = IUse ws :: r -> src (path ws) <> None -> tr (f :: s) (upd its f r) o -> tr (f :: s) its o
| tr_no_use f s its ws r o : its f = IUse ws :: r -> src (path ws) = None -> tr (f :: s) (upd its f r) o -> tr (f :: s) its (TError :: o)
| tr_load f s its i g b r o : its f = i :: r -> loaded i = Some g -> src g = Some b -> tr (g :: f :: s) (upd (upd its f r) g b) o -> tr (f :: s) its o
| tr_no_load f s its i g r o : its f = i :: r -> loaded i = Some g -> src g = None -> tr (f :: s) (upd its f r) o -> tr (f :: s) its (TError :: o)
| tr_version f s its x v r o : its f = IVersion x :: r -> denotes x v -> v <= 5 -> tr (f :: s) (upd its f r) o -> tr (f :: s) its o
| tr_new_version f s its x v r o : its f = IVersion x :: r -> denotes x v -> 5 < v -> tr (f :: s) (upd its f r) o -> tr (f :: s) its (TError :: o).

(* a state whose open files are f :: s and where l is left to read in f *)
Definition at_ (st st' : pst) (f : text) (l : list rtok) : Prop :=
  open_files st' = open_files st /\ lx_un st' = false /\ pp_un st' = pp_un st /\ registered st' = registered st /\
  rem st' f = mkFile l false /\ (forall g, g <> f -> rem st' g = rem st g).
Lemma at_trans st st1 st2 f l l' : at_ st st1 f l -> at_ st1 st2 f l' -> at_ st st2 f l'.
Proof.
  intros (A1 & A2 & A3 & A4 & A5 & A6) (B1 & B2 & B3 & B4 & B5 & B6).
  split; [congruence|]. split; [auto|]. split; [congruence|]. split; [congruence|]. split; [auto|]. intros g Hg. rewrite B6, A6; auto.
Qed.
Lemma lex_at st f s t l : open_files st = f :: s -> lx_un st = false -> rem st f = mkFile (t :: l) false ->
  exists st', lex st = (t, negb (is_error t), st') /\ at_ st st' f l.
Proof.
  intros HO HU HR. unfold lex. rewrite HU, HO. cbn [next_raw]. rewrite HR. cbn [f_toks f_abrupt].
  assert (forall u, at_ st (set_lx (set_open (set_rem st f (mkFile l false)) (f :: s)) false u) f l) as HA.
  { intros u. split; [cbn; auto|]. split; [reflexivity|]. split; [reflexivity|]. split; [reflexivity|]. cbn. split; [apply upd_same|]. intros g Hg. apply upd_other. congruence. }
  destruct t; eauto. destruct l; eauto.
Qed.
(* files that have ended are left *)
Lemma lex_pop st f s : open_files st = f :: s -> lx_un st = false -> f_toks (rem st f) = [] -> lex st = lex (set_open st s).
Proof.
  intros HO HU HR. unfold lex. rewrite HU. cbn [lx_un set_open open_files]. rewrite HU, HO. cbn [next_raw]. rewrite HR.
  replace (next_raw s (set_open st s)) with (next_raw s st); auto.
  assert (forall s', next_raw s' st = next_raw s' (set_open st s)) as HH; [|apply HH].
  induction s' as [|g s' IH]; cbn [next_raw]; auto. cbn [rem set_open]. destruct (f_toks (rem st g)); auto.
Qed.
Lemma get_pop n st f s : open_files st = f :: s -> lx_un st = false -> pp_un st = false -> f_toks (rem st f) = [] ->
  getNextToken n fs st = getNextToken n fs (set_open st s).
Proof.
  intros HO HU HP HR. destruct n as [|n]; auto. cbn [getNextToken]. cbn [pp_un set_open]. rewrite HP, (lex_pop st f s) by auto. reflexivity.
Qed.

Lemma dotted_cons w r : r <> [] -> dotted (w :: r) = TWord w :: TDot :: dotted r.
Proof. destruct r; [congruence|reflexivity]. Qed.
Lemma slashed_cons w r : r <> [] -> slashed (w :: r) = w ++ txt "/" ++ slashed r.
Proof. destruct r; [congruence|reflexivity]. Qed.
Lemma package_dotted ws : ws <> [] -> forall acc l st f s, open_files st = f :: s -> lx_un st = false -> rem st f = mkFile (dotted ws ++ TSemi :: l) false ->
  exists st', at_ st st' f l /\ forall n, (2 * length ws <= n)%nat -> packageName n acc st = Some (true, acc ++ path ws, st').
Proof.
  induction ws as [|w ws IH]; intros HW acc l st f s HO HU HR; [congruence|]. clear HW.
  destruct ws as [|w' ws].
  - cbn [dotted app] in HR. destruct (lex_at _ _ _ _ _ HO HU HR) as (st1 & E1 & A1). pose proof A1 as (B1 & B2 & _ & _ & B5 & _). rewrite HO in B1.
    destruct (lex_at _ _ _ _ _ B1 B2 B5) as (st2 & E2 & A2). exists st2. split; [eapply at_trans; eauto|].
    intros n Hn. destruct n as [|[|n]]; cbn [length] in Hn; [lia..|]. cbn [packageName]. rewrite E1. cbn [is_error negb]. rewrite E2. cbn [is_error negb].
    unfold path. cbn [slashed]. rewrite <- app_assoc. reflexivity.
  - rewrite dotted_cons in HR by discriminate. cbn [app] in HR.
    destruct (lex_at _ _ _ _ _ HO HU HR) as (st1 & E1 & A1). pose proof A1 as (B1 & B2 & _ & _ & B5 & _). rewrite HO in B1.
    destruct (lex_at _ _ _ _ _ B1 B2 B5) as (st2 & E2 & A2). pose proof A2 as (C1 & C2 & _ & _ & C5 & _). rewrite B1 in C1.
    destruct (IH ltac:(discriminate) ((acc ++ w) ++ txt "/") l st2 f s C1 C2 C5) as (st3 & A3 & E3). exists st3.
    split; [eapply at_trans; [eapply at_trans; eauto|eauto]|].
    intros n Hn. destruct n as [|[|n]]; cbn [length] in Hn; [lia..|]. cbn [packageName]. rewrite E1. cbn [is_error negb]. rewrite E2. cbn [is_error negb].
    rewrite E3 by (cbn [length]; lia). unfold path. rewrite (slashed_cons w) by discriminate. rewrite <- !app_assoc. reflexivity.
Qed.

Lemma aligned_at st st' f s its i r : aligned st (f :: s) its -> its f = i :: r -> at_ st st' f (prints r) -> aligned st' (f :: s) (upd its f r).
Proof.
  intros (A1 & A2 & A3 & A4 & A5) HI (B1 & B2 & B3 & B4 & B5 & B6). split; [congruence|]. split; [auto|]. split; [congruence|]. split.
  - intros g Hg. destruct (list_eq_dec N.eq_dec f g) as [<-|HN].
    + rewrite upd_same, B5. split; auto. destruct (A4 f) as [_ HF]; [left; auto|]. rewrite HI in HF. inversion HF; auto.
    + rewrite upd_other, B6 by auto. apply A4; auto.
  - intros g Hg. apply A5. unfold registered_b in *. rewrite B4 in Hg. auto.
Qed.
Lemma prints_cons i r : prints (i :: r) = print i ++ prints r.
Proof. reflexivity. Qed.
Lemma aligned_pp st stk its t : aligned st stk its -> aligned (set_pp st false t) stk its.
Proof. intros (A1 & A2 & A3 & A4 & A5). repeat (split; auto). Qed.
Lemma at_pp st st' f l t : pp_un st = false -> at_ st st' f l -> at_ st (set_pp st' false t) f l.
Proof. intros HP (A1 & A2 & A3 & A4 & A5 & A6). repeat (split; auto). Qed.
Lemma fexists_src st stk its g : aligned st stk its -> fexists fs g st = match src g with Some _ => true | None => false end.
Proof.
  intros (_ & _ & _ & _ & A5). unfold fexists, fs, files. destruct (src g) eqn:E; cbn [option_map]; [apply orb_true_r|].
  rewrite orb_false_r. destruct (registered_b st g) eqn:ER; auto. apply A5 in ER. congruence.
Qed.
Lemma push_src st f s its g b : aligned st (f :: s) its -> src g = Some b ->
  exists st', push fs g false st = Some st' /\ aligned st' (g :: f :: s) (upd its g b).
Proof.
  intros (A1 & A2 & A3 & A4 & A5) E. unfold push. cbn [andb]. unfold fs, files. rewrite E. cbn [option_map]. eexists. split; [reflexivity|].
  split; [cbn; congruence|]. split; [auto|]. split; [auto|]. cbn [rem]. split.
  - intros h Hh. destruct (list_eq_dec N.eq_dec g h) as [<-|HN].
    + rewrite !upd_same. split; auto. apply (HS g); auto.
    + rewrite !upd_other by auto. apply A4. destruct Hh; [congruence|auto].
  - intros h. destruct (registered_b st g) eqn:ER; [exact (A5 h)|]. unfold registered_b. cbn [registered existsb]. intros HH. apply orb_prop in HH as [HH|HH].
    + apply text_eqb_eq in HH. congruence.
    + apply A5. exact HH.
Qed.

(* one step: what the item at the front does, with enough fuel *)
Definition becomes (n0 : nat) (st st' : pst) : Prop :=
  forall n, ((n0 <= n)%nat -> getNextToken (S n) fs st = getNextToken n fs st') /\
            (getNextToken (S n) fs st = POut \/ getNextToken (S n) fs st = getNextToken n fs st').
Lemma package_or n0 acc st x : (forall n, (n0 <= n)%nat -> packageName n acc st = Some x) -> forall n, packageName n acc st = None \/ packageName n acc st = Some x.
Proof.
  intros H n. destruct (packageName n acc st) as [y|] eqn:E; auto. right. rewrite <- (H (Nat.max n n0)) by lia. symmetry. apply (package_mono n); auto. lia.
Qed.
Inductive does (st : pst) (f : text) (s : list text) (its : text -> list item) : item -> list item -> Prop :=
| do_plain t r st' : (forall n, getNextToken (S n) fs st = PTok t true st') -> t <> TEof -> aligned st' (f :: s) (upd its f r) -> does st f s its (IPlain t) r
| do_use ws r st' n0 : src (path ws) <> None -> becomes n0 st st' -> aligned st' (f :: s) (upd its f r) ->
    does st f s its (IUse ws) r
| do_no_use ws r st' n0 : src (path ws) = None -> (forall n, (n0 <= n)%nat -> getNextToken (S n) fs st = PTok TError false st') -> aligned st' (f :: s) (upd its f r) ->
    does st f s its (IUse ws) r
| do_load i g b r st' n0 : loaded i = Some g -> src g = Some b -> becomes n0 st st' ->
    aligned st' (g :: f :: s) (upd (upd its f r) g b) -> does st f s its i r
| do_no_load i g r st' n0 : loaded i = Some g -> src g = None -> (forall n, (n0 <= n)%nat -> getNextToken (S n) fs st = PTok TError false st') ->
    aligned st' (f :: s) (upd its f r) -> does st f s its i r
| do_version x v r st' n0 : denotes x v -> v < 2 ^ 32 -> v <= 5 -> becomes n0 st st' ->
    aligned st' (f :: s) (upd its f r) -> does st f s its (IVersion x) r
| do_new_version x v r st' n0 : denotes x v -> v < 2 ^ 32 -> 5 < v -> (forall n, (n0 <= n)%nat -> getNextToken (S n) fs st = PTok TError false st') ->
    aligned st' (f :: s) (upd its f r) -> does st f s its (IVersion x) r.

Lemma item_does st f s its i r : aligned st (f :: s) its -> its f = i :: r -> does st f s its i r.
Proof.
  intros HA HI. pose proof HA as (A1 & A2 & A3 & A4 & A5). destruct (A4 f (or_introl eq_refl)) as [HR HF]. rewrite HI in HR, HF. rewrite prints_cons in HR.
  assert (item_ok i) as HOK by (inversion HF; auto).
  destruct i as [t|ws|ws|g|x]; cbn [print] in HR.
  - destruct (lex_at _ _ _ _ _ A1 A2 HR) as (st1 & E1 & B). apply do_plain with (st' := set_pp st1 false t).
    + intros n. cbn [getNextToken]. rewrite A3, E1. cbn in HOK. destruct t; auto; contradiction.
    + intros ->. exact HOK.
    + eapply aligned_at; eauto. apply at_pp; auto.
  - cbn [app] in HR. rewrite <- app_assoc in HR. destruct (lex_at _ _ _ _ _ A1 A2 HR) as (st1 & E1 & B1).
    apply (at_pp _ _ _ _ TUse A3) in B1. pose proof B1 as (C1 & C2 & C3 & C4 & C5 & C6). rewrite A1 in C1.
    destruct (package_dotted ws HOK [] (prints r) (set_pp st1 false TUse) f s C1 C2 C5) as (st2 & B2 & E2).
    pose proof (aligned_at _ _ _ _ _ _ _ HA HI (at_trans _ _ _ _ _ _ B1 B2)) as HA2. pose proof (fexists_src _ _ _ (path ws) HA2) as HE.
    destruct (src (path ws)) as [b|] eqn:ES.
    + apply do_use with (st' := st2) (n0 := (2 * length ws)%nat); auto; [congruence|]. intros n. cbn [getNextToken]. rewrite A3, E1. split.
      * intros Hn. rewrite E2 by auto. cbn [app]. rewrite HE. reflexivity.
      * destruct (package_or _ _ _ _ E2 n) as [-> | ->]; auto. cbn [app]. rewrite HE. auto.
    + apply do_no_use with (st' := st2) (n0 := (2 * length ws)%nat); auto. intros n Hn. cbn [getNextToken]. rewrite A3, E1, E2 by auto. cbn [app]. rewrite HE. reflexivity.
  - cbn [app] in HR. rewrite <- app_assoc in HR. destruct (lex_at _ _ _ _ _ A1 A2 HR) as (st1 & E1 & B1).
    apply (at_pp _ _ _ _ TLoad A3) in B1. pose proof B1 as (C1 & C2 & C3 & C4 & C5 & C6). rewrite A1 in C1.
    destruct (package_dotted ws HOK [] (prints r) (set_pp st1 false TLoad) f s C1 C2 C5) as (st2 & B2 & E2).
    pose proof (aligned_at _ _ _ _ _ _ _ HA HI (at_trans _ _ _ _ _ _ B1 B2)) as HA2.
    destruct (src (path ws)) as [b|] eqn:ES.
    + destruct (push_src _ _ _ _ _ _ HA2 ES) as (st3 & E3 & HA3).
      apply do_load with (g := path ws) (b := b) (st' := st3) (n0 := (2 * length ws)%nat); auto. intros n. cbn [getNextToken]. rewrite A3, E1. split.
      * intros Hn. rewrite E2 by auto. cbn [app]. rewrite E3. reflexivity.
      * destruct (package_or _ _ _ _ E2 n) as [-> | ->]; auto. cbn [app]. rewrite E3. auto.
    + apply do_no_load with (g := path ws) (st' := st2) (n0 := (2 * length ws)%nat); auto. intros n Hn. cbn [getNextToken]. rewrite A3, E1, E2 by auto. cbn [app].
      unfold push, fs, files. rewrite ES. reflexivity.
  - cbn [app] in HR. destruct (lex_at _ _ _ _ _ A1 A2 HR) as (st1 & E1 & B1).
    apply (at_pp _ _ _ _ TLoad A3) in B1. pose proof B1 as (C1 & C2 & C3 & C4 & C5 & C6). rewrite A1 in C1.
    destruct (lex_at _ _ _ _ _ C1 C2 C5) as (st2 & E2 & B2). pose proof B2 as (D1 & D2 & D3 & D4 & D5 & D6). rewrite C1 in D1.
    set (st2' := set_lx (unread_lex st2) false (lx_last (unread_lex st2))).
    destruct (lex_at st2' f s TSemi (prints r) D1 eq_refl D5) as (st3 & E3 & B3).
    assert (lx_last st2 = TQuoted g) as HL.
    { unfold lex in E2. rewrite C2, C1 in E2. cbn [next_raw] in E2. rewrite C5 in E2. cbn [f_toks f_abrupt] in E2. injection E2 as <-. reflexivity. }
    assert (forall n, packageName (S n) [] (set_pp st1 false TLoad) = Some (false, [], unread_lex st2)) as EP.
    { intros n. cbn [packageName]. rewrite E2. reflexivity. }
    assert (lex (unread_lex st2) = (TQuoted g, true, st2')) as EU by (unfold lex, st2', unread_lex; cbn; rewrite HL; reflexivity).
    destruct HOK as [HG HP]. assert (forallb printable g && negb match g with [] => true | _ => false end = true) as HPR.
    { destruct g; [congruence|]. rewrite andb_true_r. apply forallb_forall. intros c Hc. rewrite Forall_forall in HP. specialize (HP c Hc). unfold printable. lia. }
    assert (fileName [] (unread_lex st2) = (true, g, st3)) as EF by (unfold fileName; rewrite EU, HPR, E3; reflexivity).
    assert (at_ st st3 f (prints r)) as B.
    { eapply at_trans; [exact B1|]. eapply at_trans; [exact B2|].
      destruct B3 as (X1 & X2 & X3 & X4 & X5 & X6). split; [exact X1|]. split; [exact X2|]. split; [exact X3|]. split; [exact X4|]. split; [exact X5|exact X6]. }
    pose proof (aligned_at _ _ _ _ _ _ _ HA HI B) as HA2.
    destruct (src g) as [b|] eqn:ES.
    + destruct (push_src _ _ _ _ _ _ HA2 ES) as (st4 & E4 & HA3).
      apply do_load with (g := g) (b := b) (st' := st4) (n0 := 1%nat); auto. intros [|n].
      * split; [lia|]. left. cbn [getNextToken]. rewrite A3, E1. reflexivity.
      * cbn [getNextToken]. rewrite A3, E1, EP, EF, E4. auto.
    + apply do_no_load with (g := g) (st' := st3) (n0 := 1%nat); auto. intros [|n] Hn; [lia|]. cbn [getNextToken]. rewrite A3, E1, EP, EF.
      unfold push, fs, files. rewrite ES. reflexivity.
  - cbn [app] in HR. destruct HOK as (v & HD & HV). pose proof (versionOf_denotes x v HD HV) as EV.
    destruct (lex_at _ _ _ _ _ A1 A2 HR) as (st1 & E1 & B1).
    apply (at_pp _ _ _ _ TUlam A3) in B1. pose proof B1 as (C1 & C2 & C3 & C4 & C5 & C6). rewrite A1 in C1. rewrite A3 in C3.
    destruct (lex_at _ _ _ _ _ C1 C2 C5) as (st2 & E2 & B2). apply (at_pp _ _ _ _ (TNumber x) C3) in B2.
    pose proof B2 as (D1 & D2 & D3 & D4 & D5 & D6). rewrite C1 in D1. rewrite C3 in D3.
    assert (forall n, getNextToken (S n) fs (set_pp st1 false TUlam) = PTok (TNumber x) true (set_pp st2 false (TNumber x))) as G2.
    { intros n. cbn [getNextToken]. rewrite C3, E2. reflexivity. }
    destruct (v <=? 5) eqn:EV5.
    + set (st3 := set_ver (set_pp st2 false (TNumber x)) f v).
      assert (at_ (set_pp st2 false (TNumber x)) st3 f (TSemi :: prints r)) as B3 by (repeat (split; auto)).
      destruct (lex_at st3 f s TSemi (prints r) D1 D2 D5) as (st4 & E4 & B4). apply (at_pp _ _ _ _ TSemi D3) in B4.
      apply do_version with (v := v) (st' := set_pp st4 false TSemi) (n0 := 1%nat); auto; [lia| |].
      * intros [|n].
        -- split; [lia|]. left. cbn [getNextToken]. rewrite A3, E1. reflexivity.
        -- cbn [getNextToken] in *. rewrite A3, E1, (G2 n). cbv beta iota. rewrite EV. unfold setFileUlamVersion. rewrite D1. fold st3.
           replace (pp_un st3) with false by (symmetry; exact D3). rewrite E4. auto.
      * eapply aligned_at; eauto. eapply at_trans; [exact B1|]. eapply at_trans; [exact B2|]. eapply at_trans; [exact B3|exact B4].
    + destruct (lex_at _ f s TSemi (prints r) D1 D2 D5) as (st4 & E4 & B4). apply (at_pp _ _ _ _ TSemi D3) in B4.
      apply do_new_version with (v := v) (st' := set_pp st4 false TSemi) (n0 := 1%nat); auto; [lia| |].
      * intros [|n] Hn; [lia|]. cbn [getNextToken] in *. rewrite A3, E1, (G2 n). cbv beta iota. rewrite EV. rewrite D3, E4. reflexivity.
      * eapply aligned_at; eauto. eapply at_trans; [exact B1|]. eapply at_trans; [exact B2|exact B4].
Qed.
Lemma aligned_pop st f s its : aligned st (f :: s) its -> aligned (set_open st s) s its.
Proof. intros (A1 & A2 & A3 & A4 & A5). repeat (split; auto). - apply A4; right; auto. - apply A4; right; auto. Qed.

Lemma get_tr n : forall stk st its t ok st', aligned st stk its -> getNextToken n fs st = PTok t ok st' ->
  (t = TEof /\ tr stk its []) \/ (t <> TEof /\ exists stk' its', aligned st' stk' its' /\ forall o, tr stk' its' o -> tr stk its (t :: o)).
Proof.
  induction n as [|n IH]; [discriminate|]. induction stk as [|f s IHS]; intros st its t ok st' HA E.
  - left. pose proof HA as (A1 & A2 & A3 & _). cbn [getNextToken] in E. unfold lex in E. rewrite A3, A2, A1 in E. cbn [next_raw] in E. injection E as <- _ _. split; auto. constructor.
  - destruct (its f) as [|i r] eqn:EI.
    + pose proof HA as (A1 & A2 & A3 & A4 & _). destruct (A4 f (or_introl eq_refl)) as [HR _]. rewrite EI in HR.
      rewrite (get_pop (S n) st f s A1 A2 A3) in E by (rewrite HR; reflexivity).
      destruct (IHS _ _ _ _ _ (aligned_pop _ _ _ _ HA) E) as [[HT HTR]|(HT & stk' & its' & HA' & HO)].
      * left. split; auto. apply tr_pop; auto.
      * right. split; auto. exists stk', its'. split; auto. intros o Ho. apply tr_pop; auto.
    + destruct (item_does st f s its i r HA EI) as [u r st1 HG HN HA1 | ws r st1 n0 HX HG HA1 | ws r st1 n0 HX HG HA1 | i g b r st1 n0 HL HX HG HA1 | i g r st1 n0 HL HX HG HA1 | x v r st1 n0 HD HV HX HG HA1 | x v r st1 n0 HD HV HX HG HA1].
      * rewrite HG in E. injection E as <- _ <-. right. split; auto. exists (f :: s), (upd its f r). split; auto. intros o Ho. eapply tr_plain; eauto.
      * destruct (HG n) as [_ [HH|HH]]; rewrite HH in E; [discriminate|]. destruct (IH _ _ _ _ _ _ HA1 E) as [[HT HTR]|(HT & stk' & its' & HA' & HO)].
        -- left. split; auto. eapply tr_use; eauto.
        -- right. split; auto. exists stk', its'. split; auto. intros o Ho. eapply tr_use; eauto.
      * assert (PTok t ok st' = PTok TError false st1) as EE by (rewrite <- E, <- (HG (Nat.max n n0)) by lia; symmetry; apply get_mono; [lia|congruence]).
        injection EE as -> _ ->. right. split; [discriminate|]. exists (f :: s), (upd its f r). split; auto. intros o Ho. eapply tr_no_use; eauto.
      * destruct (HG n) as [_ [HH|HH]]; rewrite HH in E; [discriminate|]. destruct (IH _ _ _ _ _ _ HA1 E) as [[HT HTR]|(HT & stk' & its' & HA' & HO)].
        -- left. split; auto. eapply tr_load; eauto.
        -- right. split; auto. exists stk', its'. split; auto. intros o Ho. eapply tr_load; eauto.
      * assert (PTok t ok st' = PTok TError false st1) as EE by (rewrite <- E, <- (HG (Nat.max n n0)) by lia; symmetry; apply get_mono; [lia|congruence]).
        injection EE as -> _ ->. right. split; [discriminate|]. exists (f :: s), (upd its f r). split; auto. intros o Ho. eapply tr_no_load; eauto.
      * destruct (HG n) as [_ [HH|HH]]; rewrite HH in E; [discriminate|]. destruct (IH _ _ _ _ _ _ HA1 E) as [[HT HTR]|(HT & stk' & its' & HA' & HO)].
        -- left. split; auto. eapply tr_version; eauto.
        -- right. split; auto. exists stk', its'. split; auto. intros o Ho. eapply tr_version; eauto.
      * assert (PTok t ok st' = PTok TError false st1) as EE by (rewrite <- E, <- (HG (Nat.max n n0)) by lia; symmetry; apply get_mono; [lia|congruence]).
        injection EE as -> _ ->. right. split; [discriminate|]. exists (f :: s), (upd its f r). split; auto. intros o Ho. eapply tr_new_version; eauto.
Qed.
Lemma drain_tr n : forall st stk its o, aligned st stk its -> drain n fs st = Some o -> tr stk its o.
Proof.
  induction n as [|n IH]; intros st stk its o HA E; [discriminate|]. cbn [drain] in E.
  destruct (getNextToken n fs st) as [| |t ok st1] eqn:EG; try discriminate.
  destruct (get_tr n _ _ _ _ _ _ HA EG) as [[-> HTR]|(HT & stk' & its' & HA' & HO)].
  - injection E as <-. auto.
  - assert (option_map (cons t) (drain n fs st1) = Some o) as E' by (destruct t; auto; congruence).
    destruct (drain n fs st1) as [o1|] eqn:ED; [|discriminate]. injection E' as <-. apply HO. eauto.
Qed.

Lemma drain_S n st : drain (S n) fs st = match getNextToken n fs st with PTok TEof _ _ => Some [] | PTok t _ st => option_map (cons t) (drain n fs st) | _ => None end.
Proof. reflexivity. Qed.
Lemma drain_becomes n0 st st' k o : becomes n0 st st' -> drain k fs st' = Some o -> exists m, drain m fs st = Some o.
Proof.
  intros HB E. destruct k as [|k]; [discriminate|]. rewrite drain_S in E.
  exists (S (S (Nat.max k n0))). rewrite drain_S. destruct (HB (Nat.max k n0)) as [HB1 _]. rewrite HB1 by lia.
  destruct (getNextToken k fs st') as [| |t ok st1] eqn:EG; try discriminate.
  rewrite (get_mono fs k) by (try lia; congruence). rewrite EG.
  destruct t; auto; (destruct (drain k fs st1) as [o1|] eqn:ED; [|discriminate]; rewrite (drain_mono fs k (S (Nat.max k n0)) st1 o1) by (auto; lia); auto).
Qed.
Lemma drain_token n0 st st' t ok k o : t <> TEof -> (forall n, (n0 <= n)%nat -> getNextToken (S n) fs st = PTok t ok st') -> drain k fs st' = Some o ->
  exists m, drain m fs st = Some (t :: o).
Proof.
  intros HT HG E. exists (S (S (Nat.max k n0))). rewrite drain_S. rewrite HG by lia.
  assert (drain (S (Nat.max k n0)) fs st' = Some o) as E' by (apply (drain_mono fs k); auto; lia). rewrite E'. destruct t; auto; congruence.
Qed.
Lemma tr_drain stk its o : tr stk its o -> forall st, aligned st stk its -> exists n, drain n fs st = Some o.
Proof.
  induction 1 as [its|f s its o HI HT IH|f s its t r o HI HT IH|f s its ws r o HI HX HT IH|f s its ws r o HI HX HT IH|f s its i g b r o HI HL HX HT IH|f s its i g r o HI HL HX HT IH
    |f s its x v r o HI HD HX HT IH|f s its x v r o HI HD HX HT IH]; intros st HA.
  - exists 2%nat. destruct HA as (A1 & A2 & A3 & _). cbn [drain getNextToken]. unfold lex. rewrite A3, A2, A1. reflexivity.
  - destruct (IH _ (aligned_pop _ _ _ _ HA)) as [n E]. exists n. rewrite <- E. destruct n as [|n]; auto. cbn [drain].
    pose proof HA as (A1 & A2 & A3 & A4 & _). destruct (A4 f (or_introl eq_refl)) as [HR _]. rewrite HI in HR.
    rewrite (get_pop n st f s A1 A2 A3) by (rewrite HR; reflexivity). reflexivity.
  - pose proof (item_does st f s its _ r HA HI) as D. inversion D; subst; try discriminate.
    destruct (IH st') as [k E]; auto. apply (drain_token 0 st st' t true k o); auto.
  - pose proof (item_does st f s its _ r HA HI) as D. inversion D; subst; try discriminate; try congruence.
    destruct (IH st') as [k E]; auto. eapply drain_becomes; eauto.
  - pose proof (item_does st f s its _ r HA HI) as D. inversion D; subst; try discriminate; try congruence.
    destruct (IH st') as [k E]; auto. eapply (drain_token n0); eauto. discriminate.
  - pose proof (item_does st f s its _ r HA HI) as D. inversion D; subst; cbn in HL; try discriminate; try congruence.
    + replace g0 with g in * by congruence. replace b0 with b in * by congruence. destruct (IH st') as [k E]; auto. eapply drain_becomes; eauto.
  - pose proof (item_does st f s its _ r HA HI) as D. inversion D; subst; cbn in HL; try discriminate; try congruence.
    destruct (IH st') as [k E]; auto. eapply (drain_token n0); eauto. discriminate.
  - pose proof (item_does st f s its _ r HA HI) as D. inversion D; subst; try discriminate; try (destruct (IH st') as [k E]; auto; eapply drain_becomes; eauto; fail).
    exfalso. destruct (strtol0_denotes _ _ HD) as [_ EA], (strtol0_denotes _ _ H0) as [_ EB]. rewrite EA in EB. assert (N.min v (2 ^ 63 - 1) = N.min v0 (2 ^ 63 - 1)) as EC by congruence. lia.
  - pose proof (item_does st f s its _ r HA HI) as D. inversion D; subst; try discriminate; try (destruct (IH st') as [k E]; auto; eapply (drain_token n0); eauto; discriminate).
    exfalso. destruct (strtol0_denotes _ _ HD) as [_ EA], (strtol0_denotes _ _ H0) as [_ EB]. rewrite EA in EB. assert (N.min v (2 ^ 63 - 1) = N.min v0 (2 ^ 63 - 1)) as EC by congruence. lia.
Qed.

(* ---- cycles ---- *)
Lemma cycle_no_tr S : load_cycle src S -> forall stk its o, tr stk its o ->
  (forall k, In k stk -> forall i, In i (its k) -> exists b, src k = Some b /\ In i b) ->
  (exists k i g, In k stk /\ In i (its k) /\ loaded i = Some g /\ S g) -> False.
Proof.
  intros HC. induction 1 as [its|f s its o HI HT IH|f s its t r o HI HT IH|f s its ws r o HI HX HT IH|f s its ws r o HI HX HT IH|f s its i g b r o HI HL HX HT IH|f s its i g r o HI HL HX HT IH
    |f s its x v r o HI HD HX HT IH|f s its x v r o HI HD HX HT IH]; intros HB (k & j & h & HK & HJ & HLJ & HSH).
  1: contradiction.
  1: { apply IH; [intros; apply HB; auto; right; auto|]. destruct HK as [<-|HK]; [rewrite HI in HJ; contradiction|]. exists k, j, h. auto. }
  all: assert (forall q, In q (f :: s) -> forall m, In m (upd its f r q) -> exists b, src q = Some b /\ In m b) as HB'
    by (intros q Hq m Hm; unfold upd in Hm; destruct (text_eqb f q) eqn:EQ; [apply text_eqb_eq in EQ; subst q; apply HB; auto; rewrite HI; right; auto|apply HB; auto]).
  5: { destruct (HC h HSH) as (bh & ih & gh & EH & HIN & HLH & HSG).
       apply IH; auto. destruct (list_eq_dec N.eq_dec f k) as [<-|HN].
       - rewrite HI in HJ. destruct HJ as [<-|HJ].
         + congruence.
         + exists f, j, h. split; [left; auto|]. rewrite upd_same. auto.
       - exists k, j, h. rewrite upd_other by auto. auto. }
  4: { apply IH.
       - intros q Hq m Hm. unfold upd in Hm at 1. destruct (text_eqb g q) eqn:EQ.
         + apply text_eqb_eq in EQ. subst q. eauto.
         + apply HB'; auto. destruct Hq as [<-|Hq]; auto. rewrite text_eqb_refl in EQ. discriminate.
       - destruct (list_eq_dec N.eq_dec f k) as [<-|HN].
         + rewrite HI in HJ. destruct HJ as [<-|HJ].
           * destruct (HC h HSH) as (bh & ih & gh & EH & HIN & HLH & HSG). assert (h = g) as -> by congruence. assert (bh = b) as -> by congruence.
             exists g, ih, gh. split; [left; auto|]. rewrite upd_same. auto.
           * destruct (list_eq_dec N.eq_dec g f) as [->|HN].
             -- exists f. rewrite upd_same. destruct (HB f (or_introl eq_refl) j) as (b' & EB' & HJ'); [rewrite HI; right; auto|]. assert (b' = b) as -> by congruence. exists j, h. split; [left; auto|auto].
             -- exists f, j, h. split; [right; left; auto|]. rewrite upd_other, upd_same by auto. auto.
         + destruct (list_eq_dec N.eq_dec g k) as [->|HN2].
           * exists k. rewrite upd_same. destruct (HB k HK j HJ) as (b' & EB' & HJ'). assert (b' = b) as -> by congruence. exists j, h. split; [left; auto|auto].
           * exists k, j, h. split; [right; auto|]. rewrite !upd_other by auto. auto. }
  all: apply IH; auto; destruct (list_eq_dec N.eq_dec f k) as [<-|HN];
    [rewrite HI in HJ; destruct HJ as [<-|HJ]; [discriminate|]; exists f, j, h; split; [left; auto|]; rewrite upd_same; auto | exists k, j, h; rewrite upd_other by auto; auto].
Qed.

(* each open file was loaded by the one below it *)
Definition load_of (f g : text) : Prop := exists b i, src f = Some b /\ In i b /\ loaded i = Some g.
Fixpoint chain (stk : list text) : Prop :=
  match stk with f :: s => match s with h :: _ => load_of h f | [] => True end /\ chain s | [] => True end.
Definition within (stk : list text) (its : text -> list item) : Prop := forall k, In k stk -> exists b, src k = Some b /\ incl (its k) b.

(* the files from the top down to g *)
Lemma chain_cycle : forall stk top g, chain (top :: stk) -> load_of top g -> In g (top :: stk) ->
  exists P, load_cycle src P /\ P g.
Proof.
  intros stk top g HC HL HI.
  assert (forall s f, chain (f :: s) -> In g (f :: s) -> exists l, (forall k, In k l -> exists h, In h l /\ load_of k h \/ k = f) /\ In g l /\ In f l) as HX.
  { induction s as [|h s IH]; intros f HCF HG.
    - exists [f]. destruct HG as [<-|[]]. split; [|split; left; auto]. intros k [<-|[]]. exists f. auto.
    - destruct (list_eq_dec N.eq_dec f g) as [->|HN].
      + exists [g]. split; [|split; left; auto]. intros k [<-|[]]. exists g. auto.
      + destruct HCF as [HF HCH]. destruct HG as [HG|HG]; [congruence|]. destruct (IH h HCH HG) as (l & HK & HGL & HHL). exists (f :: l).
        split; [|split; [right; auto|left; auto]]. intros k [<-|Hk]; [exists f; auto|]. destruct (HK k Hk) as [h' [[Hh' HLO]| ->]].
        * exists h'. left. split; [right; auto|auto].
        * exists f. left. split; [left; auto|auto]. }
  destruct (HX stk top HC HI) as (l & HK & HGL & _). exists (fun k => In k l). split; auto.
  intros k Hk. destruct (HK k Hk) as [h [[Hh (b & i & EB & HIN & HLO)]| ->]].
  - exists b, i, h. auto.
  - destruct HL as (b & i & EB & HIN & HLO). exists b, i, g. auto.
Qed.

Lemma within_upd stk its f r i s : stk = f :: s -> within stk its -> its f = i :: r -> within stk (upd its f r).
Proof.
  intros -> HW HI k Hk. destruct (HW k Hk) as (b & EB & HIN). exists b. split; auto. unfold upd. destruct (text_eqb f k) eqn:E; auto.
  apply text_eqb_eq in E. subst k. rewrite HI in HIN. intros x Hx. apply HIN. right. auto.
Qed.
Lemma tr_stands stk its o : tr stk its o -> NoDup stk -> chain stk -> within stk its ->
  exists os, Forall2 (fun f o => stands_for src (its f) o) stk os /\ o = concat os.
Proof.
  assert (forall f s (its : text -> list item) r os, NoDup (f :: s) -> Forall2 (fun g o => stands_for src (upd its f r g) o) s os -> Forall2 (fun g o => stands_for src (its g) o) s os) as HU.
  { clear its o. intros f s its r os HN HF. inversion HN as [|? ? HNI _]; subst. clear HN. induction HF as [|g o s os H HF IH]; constructor.
    - rewrite upd_other in H; auto. intros ->. apply HNI. left. auto.
    - apply IH. intros HH. apply HNI. right. auto. }
  induction 1 as [its|f s its o HI HT IH|f s its t r o HI HT IH|f s its ws r o HI HX HT IH|f s its ws r o HI HX HT IH|f s its i g b r o HI HL HX HT IH|f s its i g r o HI HL HX HT IH
    |f s its x v r o HI HD HX HT IH|f s its x v r o HI HD HX HT IH]; intros HN HC HW.
  1: { exists []. split; [constructor|reflexivity]. }
  1: { destruct IH as (os & HF & ->); [inversion HN; auto|apply HC|intros k Hk; apply HW; right; auto|]. exists ([] :: os). split; [|reflexivity]. constructor; auto. rewrite HI. constructor. }
  4: { pose proof (within_upd _ _ _ _ _ _ eq_refl HW HI) as HW'.
       assert (load_of f g) as HLO by (destruct (HW f (or_introl eq_refl)) as (bf & EB & HIN); exists bf, i; split; auto; split; auto; apply HIN; rewrite HI; left; auto).
       assert (within (g :: f :: s) (upd (upd its f r) g b)) as HWG.
       { intros k Hk. unfold upd at 1. destruct (text_eqb g k) eqn:EQ.
         - apply text_eqb_eq in EQ. subst k. exists b. split; auto. apply incl_refl.
         - apply HW'. destruct Hk as [<-|Hk]; auto. rewrite text_eqb_refl in EQ. discriminate. }
       destruct (in_dec (list_eq_dec N.eq_dec) g (f :: s)) as [HIG|HNG].
       - exfalso. destruct (chain_cycle s f g HC HLO HIG) as (P & HP & HPG).
         apply (cycle_no_tr P HP _ _ _ HT).
         + intros k Hk m Hm. destruct (HWG k Hk) as (bk & EK & HIN). eauto.
         + destruct (HP g HPG) as (bg & ig & gg & EG & HIN & HLG & HPGG). assert (bg = b) as -> by congruence. exists g, ig, gg. split; [left; auto|]. rewrite upd_same. auto.
       - destruct IH as (os & HF & ->); [constructor; auto|split; auto|auto|].
         inversion HF as [|? og ? os1 HG1 HF1]; subst. inversion HF1 as [|? oq ? os2 HG2 HF2]; subst. rewrite upd_same in HG1.
         rewrite upd_other, upd_same in HG2 by (intros ->; apply HNG; left; auto).
         exists ((og ++ oq) :: os2). split; [|cbn; rewrite app_assoc; reflexivity]. constructor.
         + rewrite HI. eapply st_load; eauto.
         + apply (HU f s its r); auto. apply (HU g s (upd its f r) b); auto. inversion HN; subst. constructor; auto. intros HH. apply HNG. right. auto. }
  all: destruct IH as (os & HF & ->); [auto|auto|apply (within_upd _ _ _ _ _ _ eq_refl HW HI)|]; inversion HF as [|? oq ? os1 HG1 HF1]; subst; rewrite upd_same in HG1;
    apply (HU f s its r _ HN) in HF1.
  - exists ((t :: oq) :: os1). split; [|reflexivity]. constructor; auto. rewrite HI. constructor. auto.
  - exists (oq :: os1). split; [|reflexivity]. constructor; auto. rewrite HI. destruct (src (path ws)) as [b|] eqn:ES; [|congruence]. eapply st_use; eauto.
  - exists ((TError :: oq) :: os1). split; [|reflexivity]. constructor; auto. rewrite HI. apply st_no_use; auto.
  - exists ((TError :: oq) :: os1). split; [|reflexivity]. constructor; auto. rewrite HI. eapply st_no_load; eauto.
  - exists (oq :: os1). split; [|reflexivity]. constructor; auto. rewrite HI. eapply st_version; eauto.
  - exists ((TError :: oq) :: os1). split; [|reflexivity]. constructor; auto. rewrite HI. eapply st_new_version; eauto.
Qed.

Lemma stands_no_cycle items o : stands_for src items o -> forall P, load_cycle src P -> forall i g, In i items -> loaded i = Some g -> P g -> False.
Proof.
  induction 1 as [|t r o H IH|ws b r o EB H IH|ws r o EB H IH|i g b r o1 o2 HL EB H1 IH1 H2 IH2|i g r o HL EB H IH|x v r o HD HV H IH|x v r o HD HV H IH]; intros P HP j h HJ HLJ HPH;
    [contradiction|destruct HJ as [<-|HJ]..]; try discriminate; try (eapply IH; eauto; fail); try (eapply IH2; eauto; fail).
  - destruct (HP h HPH) as (b' & i' & g' & EB' & HI' & HL' & HP'). assert (h = g) as -> by congruence. assert (b' = b) as -> by congruence. eapply IH1; eauto.
  - destruct (HP h HPH) as (b' & i' & g' & EB' & HI' & HL' & HP'). congruence.
Qed.
Lemma stands_tr items o : stands_for src items o -> forall its f s o', its f = items -> NoDup (f :: s) -> chain (f :: s) -> within (f :: s) its ->
  (forall its', its' f = [] -> (forall g, In g s -> its' g = its g) -> tr (f :: s) its' o') -> tr (f :: s) its (o ++ o').
Proof.
  induction 1 as [|t r o H IH|ws b r o EB H IH|ws r o EB H IH|i g b r o1 o2 HL EB H1 IH1 H2 IH2|i g r o HL EB H IH|x v r o HD HV H IH|x v r o HD HV H IH]; intros its f s o' HI HN HC HW HK.
  1: { apply HK; auto. }
  4: { pose proof (within_upd _ _ _ _ _ _ eq_refl HW HI) as HW'.
       assert (load_of f g) as HLO by (destruct (HW f (or_introl eq_refl)) as (bf & EF & HIN); exists bf, i; split; auto; split; auto; apply HIN; rewrite HI; left; auto).
       assert (~ In g (f :: s)) as HNG.
       { intros HIG. destruct (chain_cycle s f g HC HLO HIG) as (P & HP & HPG). eapply (stands_no_cycle (i :: r)); eauto; [eapply st_load; eauto|left; auto]. }
       eapply tr_load; eauto. rewrite <- app_assoc. apply IH1; [apply upd_same|constructor; auto|split; auto| |].
       - intros k Hk. unfold upd at 1. destruct (text_eqb g k) eqn:EQ.
         + apply text_eqb_eq in EQ. subst k. exists b. split; auto. apply incl_refl.
         + apply HW'. destruct Hk as [<-|Hk]; auto. rewrite text_eqb_refl in EQ. discriminate.
       - intros its' HG HA. apply tr_pop; auto.
         assert (its' f = r) as HF by (rewrite HA by (left; auto); rewrite upd_other, upd_same by (intros ->; apply HNG; left; auto); auto).
         assert (forall k, In k s -> its' k = its k) as HSK.
         { intros k Hk. rewrite HA by (right; auto). rewrite !upd_other; auto; [inversion HN; subst; intros ->; auto|]. intros ->. apply HNG. right. auto. }
         apply IH2; auto.
         + intros k [<-|Hk]; [|rewrite HSK by auto; apply HW; right; auto]. destruct (HW f (or_introl eq_refl)) as (bf & EF & HIN). exists bf. split; auto. rewrite HF. rewrite HI in HIN. intros m Hm. apply HIN. right. auto.
         + intros its2 H20 H21. apply HK; auto. intros k Hk. rewrite H21, HSK; auto. }
  all: assert (tr (f :: s) (upd its f r) (o ++ o')) as HT by
    (apply IH; auto; [apply upd_same|apply (within_upd _ _ _ _ _ _ eq_refl HW HI)|]; intros its' HF HA; apply HK; auto; intros k Hk; rewrite HA by auto; apply upd_other; inversion HN; subst; intros ->; auto).
  - eapply tr_plain; eauto.
  - eapply tr_use; eauto. congruence.
  - cbn [app]. eapply tr_no_use; eauto.
  - cbn [app]. eapply tr_no_load; eauto.
  - eapply tr_version; eauto.
  - cbn [app]. eapply tr_new_version; eauto.
Qed.

(* ---- a whole compilation ---- *)
Lemma compile_drain main b : src main = Some b -> (forall t r, b = IPlain t :: r -> t <> TError) ->
  exists st, aligned st [main] (upd (fun _ => []) main b) /\
    forall o, (exists n, compile n fs main = Some o) <-> (exists n, drain n fs st = Some o).
Proof.
  intros EB HB. unfold compile.
  assert (forall n fs' st t st1 st2, pp_un st = false -> lex st = (t, negb (is_error t), st1) -> st2 = set_pp st1 true t -> getNextToken n fs' st2 = getNextToken n fs' st) as HG.
  { intros n fs' st t st1 st2 HP HL ->. destruct n as [|n]; auto. cbn [getNextToken]. rewrite HP, HL. reflexivity. }
  assert (push fs main true init_pst = Some (mkPst [main] (upd (rem init_pst) main (mkFile (prints b) false)) (upd (version init_pst) main 0) [main] (Some main) false TEof false TEof)) as EP.
  { unfold push, fs, files. rewrite EB. reflexivity. }
  rewrite EP. set (st0 := mkPst _ _ _ _ _ _ _ _ _). exists st0.
  assert (aligned st0 [main] (upd (fun _ => []) main b)) as HA.
  { split; [reflexivity|]. split; [reflexivity|]. split; [reflexivity|]. split.
    - intros f [<-|[]]. cbn [rem st0]. rewrite !upd_same. split; auto. apply (HS main); auto.
    - intros f HF. unfold registered_b in HF. cbn in HF. rewrite orb_false_r in HF. apply text_eqb_eq in HF. congruence. }
  split; auto. intros o. unfold peekFirstToken. cbn [pp_un st0].
  assert (exists t st1, lex st0 = (t, true, st1) /\ negb (is_error t) = true) as (t & st1 & EL & HT).
  { destruct b as [|i r].
    - exists TEof. unfold lex. cbn [lx_un open_files st0 next_raw rem]. rewrite upd_same. cbn. eauto.
    - destruct HA as (A1 & A2 & A3 & A4 & A5). destruct (A4 main (or_introl eq_refl)) as [HR HF]. rewrite upd_same in HR, HF. rewrite prints_cons in HR.
      assert (exists t l, print i ++ prints r = t :: l /\ is_error t = false) as (t & l & EE & HE).
      { destruct i; cbn [print app]; eauto. exists t, (prints r). split; auto. destruct t; auto. exfalso. eapply HB; eauto. }
      rewrite EE in HR. destruct (lex_at _ _ _ _ _ A1 A2 HR) as (st1 & E1 & _). rewrite HE in E1. exists t, st1. rewrite HE. auto. }
  rewrite EL. split; intros [n E]; exists n; (destruct n as [|n]; [discriminate|]); rewrite drain_S in *; rewrite (HG n fs st0 t st1 (set_pp st1 true t)) in * by (auto; rewrite HT; auto); auto.
Qed.
Lemma compile_exact main b : src main = Some b -> (forall t r, b = IPlain t :: r -> t <> TError) ->
  forall o, (exists n, compile n fs main = Some o) <-> stands_for src b o.
Proof.
  intros EB HB o. destruct (compile_drain main b EB HB) as (st & HA & HC). rewrite HC. clear HC. split.
  - intros [n E]. pose proof (drain_tr n _ _ _ _ HA E) as HT.
    destruct (tr_stands _ _ _ HT) as (os & HF & ->); [constructor; [auto|constructor]|cbn; auto| |].
    + intros k [<-|[]]. exists b. split; auto. rewrite upd_same. apply incl_refl.
    + inversion HF as [|? o1 ? os1 H1 H2]; subst. inversion H2; subst. rewrite upd_same in H1. cbn. rewrite app_nil_r. auto.
  - intros H. apply (tr_drain [main] (upd (fun _ => []) main b)); auto. rewrite <- (app_nil_r o). apply (stands_tr b); auto.
    + apply upd_same.
    + constructor; [auto|constructor].
    + cbn; auto.
    + intros k [<-|[]]. exists b. split; auto. rewrite upd_same. apply incl_refl.
    + intros its' HF _. apply tr_pop; auto. constructor.
Qed.
Lemma cycle_endless P main : load_cycle src P -> P main -> (forall b t r, src main = Some b -> b = IPlain t :: r -> t <> TError) -> forall n, compile n fs main = None.
Proof.
  intros HP HM HB n. destruct (HP main HM) as (b & i & g & EB & HI & HL & HG). destruct (compile n fs main) as [o|] eqn:E; auto. exfalso.
  assert (stands_for src b o) as H by (apply (compile_exact main b EB); [intros; eapply HB; eauto|eauto]).
  eapply stands_no_cycle; eauto.
Qed.
End Src.
