(* ClassParseSound2.v: members, classes and the file. *)
From Coq Require Import List PeanoNat NArith Lia Bool.
From Verif Require Import Base ExprModel ExprSpec ExprProofs ExprValue ExprComplete ExprTheorems StmtModel StmtSpec StmtProofs StmtComplete StmtSound StmtTheorems ClassParseModel ClassParseSpec ClassParseComplete ClassParseSound.
Import ListNotations.
Open Scope nat_scope.
Ltac seek := let H := fresh "OK" in let HL := fresh in intro H; apply ok_look in H; destruct H as [H HL]; rewrite ?HL in *; clear HL.
Ltac dead := solve [exact I | apply wp_fail | intros [? _]; discriminate].
Ltac mm2 R := repeat first [ progress mm R | match goal with |- mon _ (memberEnd _) => apply mon_memberEnd end ].
Section Sound2.
Variable kind : N -> tykind.
Variable isref : N -> bool.

Lemma upto_hd_n : forall n l, length l <= n -> hd_tok (upto Semi l) = Semi \/ hd_tok (upto Semi l) = E TEnd.
Proof.
  induction n as [|n IH]; intros [|t l] H; [now right | cbn in H; lia | now right|]. cbn [length] in H. cbn [upto]. assert (B : hd_tok (upto Semi l) = Semi \/ hd_tok (upto Semi l) = E TEnd) by (apply IH; lia).
  destruct t as [[]| | | | | | | | | | | | | | | | |]; try exact B; try (now right); try (now left). clear B. destruct l as [|x l]; [now right|]. cbn [length] in H.
  assert (B : hd_tok (upto Semi l) = Semi \/ hd_tok (upto Semi l) = E TEnd) by (apply IH; lia). destruct x as [[]| | | | | | | | | | | | | | | | |]; try exact B; try (now right); now left.
Qed.
Lemma upto_hd l : hd_tok (upto Semi l) = Semi \/ hd_tok (upto Semi l) = E TEnd. Proof. now apply (upto_hd_n (length l)). Qed.
Lemma wp_restOfMembers ty : forall g acc s, wp (restOfMembers g ty acc s) (fun r s' =>
  if fst r then exists u ms, took s u s' /\ snd r = acc ++ ms /\ ((u = [] /\ ms = []) \/ exists v, u = E TComma :: v /\ Vars RY ty v ms) else hd_tok (toks s') <> CloseC).
Proof.
  induction g as [|g IH]; intros acc s; [exact I|]. cbn [restOfMembers]. cbv zeta. apply (wp_mon (look s)). { unfold skip. mm ltac:(first [apply mon_initial | apply mon_restOfMembers]). } seek.
  assert (B : wp (Done (true, acc) s) (fun r s' =>
  if fst r then exists u ms, took s u s' /\ snd r = acc ++ ms /\ ((u = [] /\ ms = []) \/ exists v, u = E TComma :: v /\ Vars RY ty v ms) else hd_tok (toks s') <> CloseC)).
  { intros _. cbn [fst snd]. exists [], []. split; [apply took_0|]. split; [now rewrite app_nil_r | now left]. }
  destruct (hd_tok (toks s)) as [[]| | | | | | | | | | | | | | | | |] eqn:Hd; try exact B. clear B. assert (T1 := took_drop s _ Hd ltac:(discriminate)).
  set (s1 := drop s) in *. clearbody s1. apply (wp_mon (look s1)). { unfold skip. mm ltac:(first [apply mon_initial | apply mon_restOfMembers]). } seek.
  assert (B : wp (Done (false, acc) (skip (drop s1))) (fun r s' =>
  if fst r then exists u ms, took s u s' /\ snd r = acc ++ ms /\ ((u = [] /\ ms = []) \/ exists v, u = E TComma :: v /\ Vars RY ty v ms) else hd_tok (toks s') <> CloseC)).
  { intros _. cbn [fst snd]. unfold skip. cbn [toks set_toks]. destruct (upto_hd (toks (drop s1))) as [-> | ->]; discriminate. }
  destruct (hd_tok (toks s1)) as [[]| | | | | | | | | | | | | | | | |] eqn:Hd1; try exact B. clear B. assert (T2 := took_drop s1 _ Hd1 ltac:(discriminate)).
  match type of Hd1 with _ = E (TIdent ?x) => rename x into i end.
  apply wp_initial. { intros. apply mon_restOfMembers. } intros ts m s3 O3 HI T3. eapply wp_imp; [apply IH|]. cbv beta. intros [[] l] s' HR _; cbn [fst snd] in *; [|exact HR].
  destruct HR as (u & ms & T4 & -> & HU). exists (E TComma :: E (TIdent i) :: ts ++ u), (MVar ty i m :: ms).
  split; [exact (took_cons _ _ _ _ _ T1 (took_cons _ _ _ _ _ T2 (took_app _ _ _ _ _ T3 T4)))|]. split; [now rewrite <- app_assoc|]. right. eexists. split; [reflexivity|].
  destruct HU as [(-> & ->)|(v & -> & HV)]; [rewrite app_nil_r; now constructor | now constructor].
Qed.
Lemma wp_memberEnd (r : StmtModel.res (bool * list member)) (s : st) (Q : list stok -> list member -> Prop) : mon s r ->
  wp r (fun a s' => if fst a then exists u, took s u s' /\ Q u (snd a) else hd_tok (toks s') <> CloseC) ->
  wp (memberEnd r) (fun a s' => if fst a then exists u, took s (u ++ [Semi]) s' /\ Q u (snd a) else hd_tok (toks s') <> CloseC).
Proof.
  intros M H. unfold memberEnd. eapply wp_bind; [exact H | mm idtac|]. cbv beta. intros [[] l] s1 HR O1; cbn [fst snd] in *; [|intros _; exact HR].
  apply wp_expect; [intro; exact (fun H => H) | intro; oks | |]. - intros s' O T D1 _ _. cbn [fst snd]. destruct HR as (u & T1 & HQ). exists u. split; [|exact HQ]. apply (took_app _ _ _ _ _ T1). now split. - discriminate.
Qed.
Lemma wp_typedef name s : wp (typedef kind name s) (fun a s' => if fst a then exists u, took s u s' /\ exists t x, kind x = KdName /\ x <> name /\ u = [E (TType t); E (TType x)] /\ snd a = [MTypedef t x] else hd_tok (toks s') <> CloseC).
Proof.
  unfold typedef. cbv zeta. apply (wp_mon (look s)). { unfold tok_of. mm idtac. } seek.
  destruct (hd_tok (toks s)) as [[]| | | | | | | | | | | | | | | | |] eqn:Hd; try dead. assert (T1 := took_drop s _ Hd ltac:(discriminate)).
  match type of Hd with _ = E (TType ?x) => rename x into ty end. set (s1 := drop s) in *. clearbody s1. apply (wp_mon (look s1)). { unfold tok_of. mm idtac. } seek.
  destruct (hd_tok (toks s1)) as [[]| | | | | | | | | | | | | | | | |] eqn:Hd1; try dead. assert (T2 := took_drop s1 _ Hd1 ltac:(discriminate)).
  match type of Hd1 with _ = E (TType ?x) => rename x into a end. destruct (kind a) eqn:K; try dead. destruct (N.eqb a name) eqn:Na; [dead|].
  destruct (tok_of (drop s1)) as [[]| | | | | | | | | | | | | | | | |]; try exact I; intros _; cbn [fst snd]; exists [E (TType ty); E (TType a)]; (split; [exact (took_cons _ _ _ _ _ T1 T2)|]); exists ty, a; apply N.eqb_neq in Na; auto.
Qed.
Lemma wp_constdef s : wp (constdef kind isref s) (fun a s' => if fst a then exists u, took s u s' /\ exists t i e n, kind t <> KdVoid /\ isref t = false /\ RY false e n /\
  u = E (TType t) :: E (TIdent i) :: E (TAssign 0) :: map E e /\ snd a = [MConst t i n] else hd_tok (toks s') <> CloseC).
Proof.
  unfold constdef. cbv zeta. apply (wp_mon (look s)). { unfold tok_of. mm ltac:(apply mon_constantDef). } seek.
  destruct (hd_tok (toks s)) as [[]| | | | | | | | | | | | | | | | |] eqn:Hd; try dead. assert (T1 := took_drop s _ Hd ltac:(discriminate)).
  match type of Hd with _ = E (TType ?x) => rename x into ty end. set (s1 := drop s) in *. clearbody s1.
  set (P := fun (a : bool * list member) (s' : st) => if fst a then _ else _).
  assert (B : kind ty <> KdVoid -> wp (if isref ty then Unmodelled else
      let s2 := look s1 in
      match hd_tok (toks s2) with
      | E (TIdent i) =>
        match tok_of (drop s2) with
        | E TOpen | E TOpenSq | E TSquare => Unmodelled
        | _ => constantDef true true (drop s2) (fun r s3 => Done (match r with Some n => (true, [MConst ty i n]) | None => (false, []) end) s3)
        end
      | _ => Done (false, []) (fail (drop s2))
      end) P).
  { intro KV. destruct (isref ty) eqn:R; [exact I|]. cbv zeta. apply (wp_mon (look s1)). { unfold tok_of. mm ltac:(apply mon_constantDef). } seek.
    destruct (hd_tok (toks s1)) as [[]| | | | | | | | | | | | | | | | |] eqn:Hd1; try dead. assert (T2 := took_drop s1 _ Hd1 ltac:(discriminate)).
    match type of Hd1 with _ = E (TIdent ?x) => rename x into i end. set (s2 := drop s1) in *. clearbody s2.
    assert (B : wp (constantDef true true s2 (fun r s3 => Done (match r with Some n => (true, [MConst ty i n]) | None => (false, []) end) s3)) P).
    { apply wp_constantDef. { mm idtac. } intros ts m s3 O3 HI T3 HT _ _. unfold P. cbn [fst snd]. destruct HI as [|e n HY]; [now elim HT|].
      eexists. split; [exact (took_cons _ _ _ _ _ T1 (took_cons _ _ _ _ _ T2 T3))|]. exists ty, i, e, n. auto. }
    destruct (tok_of s2) as [[]| | | | | | | | | | | | | | | | |]; try exact B; exact I. }
  cbv zeta in B. destruct (kind ty); try (apply B; discriminate). dead.
Qed.
Lemma wp_modelParameter el s : wp (modelParameter kind isref el s) (fun a s' => if fst a then exists u, took s u s' /\ exists t i e n, el = true /\ kind t <> KdVoid /\ kind t <> KdAtom /\ isref t = false /\ RY false e n /\
  u = E (TType t) :: E (TIdent i) :: E (TAssign 0) :: map E e /\ snd a = [MParam t i n] else hd_tok (toks s') <> CloseC).
Proof.
  unfold modelParameter. cbv zeta. apply (wp_mon (look s)). { unfold tok_of. mm ltac:(apply mon_parameterDef). } seek. destruct el; cbn [negb]; [|dead].
  destruct (hd_tok (toks s)) as [[]| | | | | | | | | | | | | | | | |] eqn:Hd; try dead. assert (T1 := took_drop s _ Hd ltac:(discriminate)).
  match type of Hd with _ = E (TType ?x) => rename x into ty end. set (s1 := drop s) in *. clearbody s1.
  set (P := fun (a : bool * list member) (s' : st) => if fst a then _ else _).
  assert (B : kind ty <> KdVoid -> kind ty <> KdAtom -> wp (if isref ty then Unmodelled else
      let s2 := look s1 in
      match hd_tok (toks s2) with
      | E (TIdent i) =>
        match tok_of (drop s2) with
        | E TOpen | E TOpenSq | E TSquare => Unmodelled
        | _ => parameterDef (drop s2) (fun r s3 => Done (match r with Some n => (true, [MParam ty i n]) | None => (false, []) end) s3)
        end
      | _ => Done (false, []) (fail (drop s2))
      end) P).
  { intros KV KA. destruct (isref ty) eqn:R; [exact I|]. cbv zeta. apply (wp_mon (look s1)). { unfold tok_of. mm ltac:(apply mon_parameterDef). } seek.
    destruct (hd_tok (toks s1)) as [[]| | | | | | | | | | | | | | | | |] eqn:Hd1; try dead. assert (T2 := took_drop s1 _ Hd1 ltac:(discriminate)).
    match type of Hd1 with _ = E (TIdent ?x) => rename x into i end. set (s2 := drop s1) in *. clearbody s2.
    assert (B : wp (parameterDef s2 (fun r s3 => Done (match r with Some n => (true, [MParam ty i n]) | None => (false, []) end) s3)) P).
    { apply wp_parameterDef. { mm idtac. } intros e n s3 O3 HY T3 _ _. unfold P. cbn [fst snd].
      eexists. split; [exact (took_cons _ _ _ _ _ T1 (took_cons _ _ _ _ _ T2 T3))|]. exists ty, i, e, n. auto 10. }
    destruct (tok_of s2) as [[]| | | | | | | | | | | | | | | | |]; try exact B; exact I. }
  cbv zeta in B. destruct (kind ty); try (apply B; discriminate); dead.
Qed.
Definition PM (el : bool) (name : N) (fl : list stok) (s : st) (a : bool * list member) (s' : st) : Prop :=
  if fst a then exists u, took s u s' /\ Member RX RY kind isref true el name (fl ++ u) (snd a) else hd_tok (toks s') <> CloseC.
Lemma wp_func el name fl over virt (constr : bool) ty id s0 s v : took s0 v s -> Flags fl over virt ->
  (if constr then v = [E (TType ty); E TOpen] /\ id = 0%N /\ kind ty = KdSelf /\ virt = over /\ fl = (if over then [KOverride] else []) else v = [E (TType ty); E (TIdent id); E TOpen]) ->
  wp (sbind (function over virt constr ty id s) (fun f s1 => Done (match f with Some f => (true, [MFunc f]) | None => (false, []) end) s1)) (PM el name fl s0).
Proof.
  intros T0 HF HC. eapply wp_bind; [apply wp_function | mm idtac|]. cbv beta. intros o s1 (f & u & b & ps & params & dots & c & -> & T1 & -> & HP & Hc & HK & HD & ->) O1 _.
  unfold PM. cbn [fst snd]. eexists. split; [exact (took_app _ _ _ _ _ T0 T1)|]. apply M_func. destruct constr.
  - destruct HC as (-> & -> & HS & -> & Hfl). apply Fn_constr; auto. destruct over; auto.
  - subst v. now apply Fn_func.
Qed.
Lemma wp_varOrFunc el name fl over virt w s : Flags fl over virt -> (w = false -> fl = if over then [KOverride] else []) ->
  wp (varOrFunc kind isref over virt w s) (PM el name fl s).
Proof.
  intros HF HW. unfold varOrFunc. cbv zeta. apply (wp_mon (look s)). { unfold tok_of. mm2 ltac:(first [apply mon_function | apply mon_initial | apply mon_restOfMembers]). } seek.
  destruct (hd_tok (toks s)) as [[]| | | | | | | | | | | | | | | | |] eqn:Hd; try dead.
  2:{ unfold tok_of. destruct (hd_tok (toks (look (drop s)))) as [[]| | | | | | | | | | | | | | | | |]; dead. }
  assert (T1 := took_drop s _ Hd ltac:(discriminate)).
  match type of Hd with _ = E (TType ?x) => rename x into ty end. set (s1 := drop s) in *. clearbody s1.
  apply (wp_mon (look s1)). { unfold tok_of. mm2 ltac:(first [apply mon_function | apply mon_initial | apply mon_restOfMembers]). } seek.
  destruct (hd_tok (toks s1)) as [[]| | | | | | | | | | | | | | | | |] eqn:Hd1; try dead; assert (T2 := took_drop s1 _ Hd1 ltac:(discriminate)); set (s2 := drop s1) in *; clearbody s2.
  - match type of Hd1 with _ = E (TIdent ?x) => rename x into i end.
    apply (wp_mon (look s2)). { unfold tok_of. mm2 ltac:(first [apply mon_function | apply mon_initial | apply mon_restOfMembers]). } seek.
    assert (B : wp (if isref ty then Done (false, []) (fail (if virt then fail s2 else s2)) else
         memberEnd (initial (if virt then fail s2 else s2) (fun n s5 => restOfMembers (S (length (toks s5))) ty [MVar ty i n] s5))) (PM el name fl s)).
    { destruct (isref ty) eqn:R; [dead|]. destruct virt. { eapply wp_bad. apply mon_memberEnd, mon_initial. intros. apply mon_restOfMembers. }
      assert (fl = []) by now inversion HF. subst fl.
      eapply wp_imp; [eapply (wp_memberEnd _ s (fun u ms => exists v, u = E (TType ty) :: v /\ Vars RY ty v ms)) |].
      - apply (mon_from s s2); [|apply mon_initial; intros; apply mon_restOfMembers]. intros _; assumption.
      - apply wp_initial. { intros. apply mon_restOfMembers. } intros ts m s3 O3 HI T3. eapply wp_imp; [apply wp_restOfMembers|]. cbv beta. intros [[] l] s' HR _; cbn [fst snd] in *; [|exact HR].
        destruct HR as (u & ms & T4 & -> & HU). eexists. split; [exact (took_cons _ _ _ _ _ T1 (took_cons _ _ _ _ _ T2 (took_app _ _ _ _ _ T3 T4)))|].
        eexists. split; [reflexivity|]. cbn [app]. destruct HU as [(-> & ->)|(v & -> & HV)]; [rewrite app_nil_r; now constructor | now constructor].
      - cbv beta. unfold PM. intros [[] l] s' HR _; cbn [fst snd] in *; [|exact HR]. destruct HR as (u & T3 & v & -> & HV). eexists. split; [exact T3|]. cbn [app]. now apply M_vars. }
    destruct (hd_tok (toks s2)) as [[]| | | | | | | | | | | | | | | | |] eqn:Hd2; try exact B; try exact I.
    eapply wp_func; [|exact HF | reflexivity]. exact (took_cons _ _ _ _ _ T1 (took_cons _ _ _ _ _ T2 (took_drop s2 _ Hd2 ltac:(discriminate)))).
  - destruct (kind ty) eqn:K; try dead. destruct w; [dead|]. eapply wp_func; [exact (took_cons _ _ _ _ _ T1 T2) | exact HF|]. split; [reflexivity|]. split; [reflexivity|]. split; [exact K|].
    split; [|now apply HW]. specialize (HW eq_refl). subst fl. destruct over; now inversion HF.
Qed.
Definition PM0 (el : bool) (name : N) (s : st) (a : bool * list member) (s' : st) : Prop :=
  if fst a then exists u, took s u s' /\ Member RX RY kind isref true el name u (snd a)
  else hd_tok (toks s') <> CloseC \/ (hd_tok (toks s') = CloseC /\ took s [] s' /\ snd a = []).
Lemma PM_PM0 el name fl s s1 a s' : took s fl s1 -> PM el name fl s1 a s' -> PM0 el name s a s'.
Proof. unfold PM, PM0. destruct (fst a); [|now left]. intros T (u & T2 & H). eexists. split; [exact (took_app _ _ _ _ _ T T2) | exact H]. Qed.
Lemma wp_dataMember el name s : wp (dataMember kind isref el name s) (PM0 el name s).
Proof.
  unfold dataMember. cbv zeta. apply (wp_mon (look s)). { mm2 ltac:(first [apply mon_varOrFunc | apply mon_typedef | apply mon_constdef | apply mon_modelParameter]). } seek.
  assert (B : wp (varOrFunc kind isref false false false s) (PM0 el name s)).
  { eapply wp_imp; [apply (wp_varOrFunc el name []); [constructor | reflexivity]|]. intros a s' H _. eapply PM_PM0; [apply took_0 | exact H]. }
  destruct (hd_tok (toks s)) as [[]| | | | | | | | | | | | | | | | |x] eqn:Hd; try exact B; try (assert (T1 := took_drop s _ Hd ltac:(discriminate)); set (s1 := drop s) in *; clearbody s1).
  - (* } *) intros _. right. cbn [fst snd]. split; [exact Hd|]. split; [apply took_0 | reflexivity].
  - (* typedef *) eapply wp_imp; [apply (wp_memberEnd _ s1 (fun u l => exists t x, kind x = KdName /\ x <> name /\ u = [E (TType t); E (TType x)] /\ l = [MTypedef t x])); [apply mon_typedef | apply wp_typedef]|]. intros [[] l] s' HR _; unfold PM0; cbn [fst snd] in *; [|now left].
    destruct HR as (u & T2 & t & x & K & Nx & -> & ->). eexists. split; [exact (took_cons _ _ _ _ _ T1 T2)|]. now apply M_typedef.
  - (* constant *) eapply wp_imp; [apply (wp_memberEnd _ s1 (fun u l => exists t i e n, kind t <> KdVoid /\ isref t = false /\ RY false e n /\ u = E (TType t) :: E (TIdent i) :: E (TAssign 0) :: map E e /\ l = [MConst t i n]));
      [apply mon_constdef | apply wp_constdef]|]. intros [[] l] s' HR _; unfold PM0; cbn [fst snd] in *; [|now left].
    destruct HR as (u & T2 & t & i & e & n & K & Nx & HY & -> & ->). eexists. split; [exact (took_cons _ _ _ _ _ T1 T2)|]. now apply M_const.
  - (* override *) apply (wp_mon (look s1)). { mm2 ltac:(first [apply mon_varOrFunc | apply mon_typedef | apply mon_constdef | apply mon_modelParameter]). } seek. clear B.
    assert (B : wp (varOrFunc kind isref true true false s1) (PM0 el name s)).
    { eapply wp_imp; [apply (wp_varOrFunc el name [KOverride]); [constructor | reflexivity]|]. intros a s' H _. eapply PM_PM0; [exact T1 | exact H]. }
    destruct (hd_tok (toks s1)) as [[]| | | | | | | | | | | | | | | | |x] eqn:Hd1; try exact B. destruct x; try exact B. clear B. assert (T2 := took_drop s1 _ Hd1 ltac:(discriminate)).
    eapply wp_imp; [apply (wp_varOrFunc el name [KOverride; Other WVirtual]); [constructor | discriminate]|]. intros a s' H _. eapply PM_PM0; [exact (took_app _ _ _ _ _ T1 T2) | exact H].
  - destruct x; try exact B; clear B.
    + eapply wp_imp; [apply (wp_varOrFunc el name [Other WVirtual]); [constructor | discriminate]|]. intros a s' H _. eapply PM_PM0; [exact T1 | exact H].
    + eapply wp_imp; [apply (wp_memberEnd _ s1 (fun u l => exists t i e n, el = true /\ kind t <> KdVoid /\ kind t <> KdAtom /\ isref t = false /\ RY false e n /\ u = E (TType t) :: E (TIdent i) :: E (TAssign 0) :: map E e /\ l = [MParam t i n]));
        [apply mon_modelParameter | apply wp_modelParameter]|]. intros [[] l] s' HR _; unfold PM0; cbn [fst snd] in *; [|now left].
      destruct HR as (u & T2 & t & i & e & n & K & K2 & K3 & Nx & HY & -> & ->). eexists. split; [exact (took_cons _ _ _ _ _ T1 T2)|]. now apply M_param.
Qed.
Lemma wp_dataMembers el name : forall g acc s, wp (dataMembers kind isref g el name acc s) (fun r s' => hd_tok (toks s') = CloseC ->
  exists u ms, took s u s' /\ r = acc ++ ms /\ Members RX RY kind isref true el name u ms).
Proof.
  induction g as [|g IH]; intros acc s; [exact I|]. cbn [dataMembers]. eapply wp_bind; [apply wp_dataMember | mm2 ltac:(apply mon_dataMembers)|].
  intros [[] l] s1 HM O1; unfold PM0 in HM; cbn [fst snd] in *.
  - destruct HM as (u & T1 & HM). eapply wp_imp; [apply IH|]. cbv beta. intros r s' HR _ HC. destruct (HR HC) as (v & ms & T2 & -> & HS).
    exists (u ++ v), (l ++ ms). split; [exact (took_app _ _ _ _ _ T1 T2)|]. split; [now rewrite app_assoc | now constructor].
  - intros _ HC. destruct HM as [N|(_ & T & ->)]; [congruence|]. exists [], []. split; [exact T|]. split; [reflexivity | constructor].
Qed.
Lemma wp_classBlock k conc name s : wp (classBlock kind isref k conc name s) (fun o s' => match o with None => True | Some c =>
  exists h ps b0 sup b bs ms mems, took s (h ++ b0 ++ b ++ OpenC :: ms ++ [CloseC]) s' /\ Head RY kind isref true h ps /\ Super kind true name b0 sup /\ Bases kind true name b bs /\
    Members RX RY kind isref true (match k with Element => true | _ => false end) name ms mems /\
    c = {| c_kind := k; c_concrete := conc; c_name := name; c_params := ps; c_super := sup; c_bases := bs; c_members := mems |} end).
Proof.
  unfold classBlock. cbv zeta. eapply (wp_bind _ _ (fun ps s' => exists h, took s h s' /\ Head RY kind isref true h ps)).
  { apply (wp_mon (look s)). { mm2 ltac:(apply mon_classParams). } seek. assert (B : wp (Done [] s) (fun ps s' => exists h, took s h s' /\ Head RY kind isref true h ps)).
    { intros _. exists []. split; [apply took_0 | constructor]. }
    destruct (hd_tok (toks s)) as [[]| | | | | | | | | | | | | | | | |] eqn:Hd; try exact B. assert (T1 := took_drop s _ Hd ltac:(discriminate)).
    eapply wp_imp; [apply wp_classParams|]. cbv beta. intros r s' (u & T2 & [(_ & _ & Z)|(v & ps & -> & -> & HP)]) _; [now elim Z|].
    exists (E TOpen :: v ++ [E TClose]). split; [exact (took_cons _ _ _ _ _ T1 T2) | now constructor]. }
  { mm2 ltac:(first [apply mon_baseClass | apply mon_baseClasses | apply mon_dataMembers]). }
  cbv beta. intros ps s2 (h & T1 & HH) O2. eapply (wp_bind _ _ (fun sup s' => exists b0, took s2 b0 s' /\ Super kind true name b0 sup)).
  { apply (wp_mon (look s2)). { mm2 ltac:(apply mon_baseClass). } seek. assert (B : wp (Done SDefault s2) (fun sup s' => exists b0, took s2 b0 s' /\ Super kind true name b0 sup)).
    { intros _. exists []. split; [apply took_0 | constructor]. }
    destruct (hd_tok (toks s2)) as [[]| | | | | | | | | | | | | | | | |] eqn:Hd; try exact B. assert (T2 := took_drop s2 _ Hd ltac:(discriminate)).
    eapply wp_bind; [apply wp_baseClass | mm idtac|]. cbv beta. intros b s4 (u & T3 & HB) O4 _. exists (E TColon :: u). split; [exact (took_cons _ _ _ _ _ T2 T3)|]. destruct b; now constructor. }
  { mm2 ltac:(first [apply mon_baseClass | apply mon_baseClasses | apply mon_dataMembers]). }
  cbv beta. intros sup s4 (b0 & T2 & HS) O4. eapply wp_bind; [apply wp_baseClasses | mm2 ltac:(apply mon_dataMembers)|]. cbv beta. intros bs s5 (b & bs' & T3 & -> & HB) O5. cbn [app].
  apply wp_expect; [mm2 ltac:(apply mon_dataMembers) | mm idtac | | intros; discriminate]. intros s6 O6 T6 D6 _. assert (T4 : took s5 [OpenC] s6) by now split.
  apply wp_expect; [mm idtac | mm2 ltac:(apply mon_dataMembers) | |].
  - intros s7 O7 T7 D7 _ _. exists h, ps, b0, sup, b, bs', [], []. split; [|repeat split; auto; constructor].
    refine (took_app _ _ _ _ _ T1 (took_app _ _ _ _ _ T2 (took_app _ _ _ _ _ T3 (took_cons _ _ _ _ _ T4 _)))). now split.
  - intros _ _ _. eapply wp_bind; [apply wp_dataMembers | mm idtac|]. cbv beta. intros ms s8 HM O8. apply wp_expect; [mm idtac | mm idtac | |].
    + intros s9 O9 T9 D9 _ _. destruct HM as (u & mems & T5 & -> & HM); [now rewrite T9|]. exists h, ps, b0, sup, b, bs', u, mems. cbn [app]. split; [|repeat split; auto].
      refine (took_app _ _ _ _ _ T1 (took_app _ _ _ _ _ T2 (took_app _ _ _ _ _ T3 (took_cons _ _ _ _ _ T4 (took_app _ _ _ _ _ T5 _))))). now split.
    + intros _ _ _ _. exact I.
Qed.
Lemma kind_word t k : kind_of t = Some k -> t = Other (word_of k).
Proof. destruct t as [[]| | | | | | | | | | | | | | | | |[]]; try discriminate; cbn; intro H; injection H as <-; reflexivity. Qed.
Lemma wp_thisClass : forall g conc s, wp (thisClass kind isref g conc s) (fun r s' =>
  (r = (true, []) /\ exists m s0, took s (repeat (Other WConcrete) m) s0 /\ hd_tok (toks s0) = E TEnd /\ s' = drop s0) \/
  exists u m c name h ps b0 sup b bs ms mems k, r = (false, [c]) /\ took s (repeat (Other WConcrete) m ++ u) s' /\
    u = Other (word_of k) :: E (TType name) :: h ++ b0 ++ b ++ OpenC :: ms ++ [CloseC] /\ kind name = KdName /\
    Head RY kind isref true h ps /\ Super kind true name b0 sup /\ Bases kind true name b bs /\
    Members RX RY kind isref true (match k with Element => true | _ => false end) name ms mems /\
    c = {| c_kind := k; c_concrete := conc || negb (m =? 0); c_name := name; c_params := ps; c_super := sup; c_bases := bs; c_members := mems |}).
Proof.
  induction g as [|g IH]; intros conc s; [exact I|]. cbn [thisClass]. cbv zeta. apply (wp_mon (look s)). { mm2 ltac:(first [apply mon_classBlock | apply mon_thisClass]). } seek.
  destruct (kind_of (hd_tok (toks s))) as [k|] eqn:Hk.
  - apply kind_word in Hk. assert (T1 := took_drop s _ Hk ltac:(discriminate)). set (s1 := drop s) in *. clearbody s1.
    apply (wp_mon (look s1)). { mm2 ltac:(apply mon_classBlock). } seek. destruct (hd_tok (toks s1)) as [[]| | | | | | | | | | | | | | | | |] eqn:Hd; try dead.
    match type of Hd with _ = E (TType ?x) => rename x into name end. assert (T2 := took_drop s1 _ Hd ltac:(discriminate)). destruct (kind name) eqn:K; try dead.
    eapply wp_bind; [apply wp_classBlock | mm idtac|]. cbv beta. intros [c|] s3 HC O3; [|dead]. intros _. right. destruct HC as (h & ps & b0 & sup & b & bs & ms & mems & T3 & H1 & H2 & H3 & H4 & ->).
    eexists _, 0, _, name, h, ps, b0, sup, b, bs, ms, mems, k. split; [reflexivity|]. cbn [repeat app Nat.eqb negb]. rewrite orb_false_r. split; [exact (took_cons _ _ _ _ _ T1 (took_cons _ _ _ _ _ T2 T3))|]. auto 10.
  - destruct (hd_tok (toks s)) as [[]| | | | | | | | | | | | | | | | |x] eqn:Hd; try dead.
    + intros _. left. split; [reflexivity|]. exists 0, s. split; [apply took_0|]. now split.
    + destruct x; try dead. assert (T1 := took_drop s _ Hd ltac:(discriminate)). eapply wp_imp; [apply IH|]. cbv beta. intros r s' [(-> & m & s0 & T2 & HE & ->)|HR] _.
      * left. split; [reflexivity|]. exists (S m), s0. split; [exact (took_cons _ _ _ _ _ T1 T2) | now split].
      * right. destruct HR as (u & m & c & name & h & ps & b0 & sup & b & bs & ms & mems & k & -> & T2 & Hu & K & H1 & H2 & H3 & H4 & ->).
        eexists u, (S m), _, name, h, ps, b0, sup, b, bs, ms, mems, k. split; [reflexivity|]. split; [exact (took_cons _ _ _ _ _ T1 T2)|]. cbn [Nat.eqb negb]. rewrite orb_true_r. auto 10.
Qed.
Lemma wp_parseFile : forall g acc s, wp (parseFile kind isref g acc s) (fun r s' => exists cs u rest, r = acc ++ cs /\ toks s = u ++ rest /\ hd_tok rest = E TEnd /\ File RX RY kind isref true u cs).
Proof.
  induction g as [|g IH]; intros acc s; [exact I|]. cbn [parseFile]. eapply wp_bind; [apply wp_thisClass | mm ltac:(apply mon_parseFile)|]. cbv beta.
  intros r s1 [(-> & m & s0 & T & HE & ->)|HR] O1.
  - cbn [fst snd]. intros _. exists [], (repeat (Other WConcrete) m), (toks s0). split; [reflexivity|]. split; [apply T|]. split; [exact HE|]. constructor. reflexivity.
  - destruct HR as (u & m & c & name & h & ps & b0 & sup & b & bs & ms & mems & k & -> & T2 & Hu & K & H1 & H2 & H3 & H4 & Hc). cbn [fst snd].
    eapply wp_imp; [apply IH|]. cbv beta. intros r s' (cs & v & rest & -> & T3 & HE & HF) _.
    exists (c :: cs), ((repeat (Other WConcrete) m ++ u) ++ v), rest. split; [now rewrite <- app_assoc|]. split; [destruct T2 as [-> _]; rewrite T3; now rewrite <- !app_assoc|].
    split; [exact HE|]. constructor; [|exact HF]. subst u c. constructor; auto. destruct m as [|m]; [now left|]. right. right. split; [reflexivity|]. split; [reflexivity|]. now exists m.
Qed.
End Sound2.
