(* ClassParseSound.v: what is read without an error is a file of the grammar, up to what ClassParseSpec calls lax. *)
From Coq Require Import List PeanoNat NArith Lia Bool.
From Verif Require Import Base ExprModel ExprSpec ExprProofs ExprValue ExprComplete ExprTheorems StmtModel StmtSpec StmtProofs StmtComplete StmtSound StmtTheorems ClassParseModel ClassParseSpec ClassParseComplete.
Import ListNotations.
Open Scope nat_scope.

Ltac oks ::= let H := fresh in intro H; repeat first
  [ exact H | exfalso; exact (ok_fail _ H)
  | match type of H with
    | ok (look _) => apply ok_look in H; destruct H as [H _] | ok (drop ?x) => change (ok x) in H | ok (set_toks ?x _) => change (ok x) in H
    | ok (skip ?x) => change (ok x) in H
    | ok (set_dfl ?x _) => change (ok x) in H | ok (set_asf ?x _) => change (ok x) in H | ok (match ?x with _ => _ end) => destruct x end ].
Lemma ok_comma s : ok (snd (comma s)) -> ok s.
Proof. unfold comma. cbv zeta. destruct (hd_tok (toks (look s))) as [[]| | | | | | | | | | | | | | | | |]; cbn [snd]; intro H; (change (ok (look s)) in H || idtac); now apply ok_look in H. Qed.
Lemma mon_body_of s : mon s (parseFunctionBody s).
Proof. unfold parseFunctionBody. mm ltac:(apply mon_run). Qed.
Lemma mon_constEnd {A} stmt (k : option node -> st -> res A) r s : (forall r s', mon s' (k r s')) -> mon s (constEnd stmt k r s).
Proof. intro K. unfold constEnd. mm ltac:(apply K). Qed.
Lemma mon_constantDef {A} req stmt s (k : option node -> st -> res A) : (forall r s', mon s' (k r s')) -> mon s (constantDef req stmt s k).
Proof. intro K. unfold constantDef, skip. destruct stmt; mm ltac:(now apply mon_constEnd). Qed.
Lemma mon_paramEnd {A} (k : option node -> st -> res A) n s : (forall r s', mon s' (k r s')) -> mon s (paramEnd k n s).
Proof. intro K. unfold paramEnd, skip. mm ltac:(apply K). Qed.
Lemma mon_parameterDef {A} s (k : option node -> st -> res A) : (forall r s', mon s' (k r s')) -> mon s (parameterDef s k).
Proof. intro K. unfold parameterDef. mm ltac:(now apply mon_paramEnd). Qed.

Section Sound.
Variable kind : N -> tykind.
Variable isref : N -> bool.

Lemma mon_classParams : forall g acc s, mon s (classParams kind isref g acc s).
Proof.
  induction g as [|g IH]; intros acc s; [exact I|]. cbn [classParams]. unfold tok_of. mm ltac:(apply mon_constantDef).
  all: eapply mon_from; [apply ok_comma | apply IH].
Qed.
Lemma mon_baseClass name s : mon s (baseClass kind name s). Proof. unfold baseClass. mm idtac. Qed.
Lemma mon_baseClasses name : forall g acc s, mon s (baseClasses kind g name acc s).
Proof. induction g as [|g IH]; intros acc s; [exact I|]. cbn [baseClasses]. mm ltac:(first [apply mon_baseClass | apply IH]). Qed.
Lemma mon_next rec acc dots s : (forall acc dots s, mon s (rec acc dots s)) -> mon s (nextParam rec acc dots s).
Proof.
  intro IH. unfold nextParam. pose proof (ok_comma s) as K. destruct (comma s) as [c s']. cbn [snd] in K. eapply mon_from; [|apply IH]. destruct (c && dots); [intro Z; now apply ok_fail in Z | exact K].
Qed.
Lemma mon_paramDecl rec acc dots c s : (forall acc dots s, mon s (rec acc dots s)) -> mon s (paramDecl rec acc dots c s).
Proof. intro IH. unfold paramDecl, tok_of. mm ltac:(now apply mon_next). Qed.
Lemma mon_funcParams : forall g acc dots s, mon s (funcParams g acc dots s).
Proof. induction g as [|g IH]; intros acc dots s; [exact I|]. cbn [funcParams]. mm ltac:(first [now apply mon_next | now apply mon_paramDecl]). Qed.
Lemma mon_funcBody virt s : mon s (funcBody virt s).
Proof. unfold funcBody. mm ltac:(apply mon_body_of). Qed.
Lemma mon_funcRest virt constr s : mon s (funcRest virt constr s).
Proof. unfold funcRest. mm ltac:(first [apply mon_funcParams | apply mon_funcBody]). Qed.
Lemma mon_function over virt constr ty id s : mon s (function over virt constr ty id s).
Proof. unfold function. mm ltac:(apply mon_funcRest). Qed.
Lemma mon_restOfMembers ty : forall g acc s, mon s (restOfMembers g ty acc s).
Proof. induction g as [|g IH]; intros acc s; [exact I|]. cbn [restOfMembers]. unfold skip. mm ltac:(first [apply mon_initial | apply IH]). Qed.
Lemma mon_memberEnd s r : mon s r -> mon s (memberEnd r).
Proof. intro H. unfold memberEnd. apply mon_bind; [exact H|]. mm idtac. Qed.
Lemma mon_typedef name s : mon s (typedef kind name s). Proof. unfold typedef, tok_of. mm idtac. Qed.
Lemma mon_constdef s : mon s (constdef kind isref s). Proof. unfold constdef, tok_of. mm ltac:(apply mon_constantDef). Qed.
Lemma mon_modelParameter el s : mon s (modelParameter kind isref el s). Proof. unfold modelParameter, tok_of. mm ltac:(apply mon_parameterDef). Qed.
Ltac mm2 R := repeat first [ progress mm R | match goal with |- mon _ (memberEnd _) => apply mon_memberEnd end ].
Lemma mon_varOrFunc over virt w s : mon s (varOrFunc kind isref over virt w s).
Proof. unfold varOrFunc, tok_of. mm2 ltac:(first [apply mon_function | apply mon_initial | apply mon_restOfMembers]). Qed.
Lemma mon_dataMember el name s : mon s (dataMember kind isref el name s).
Proof. unfold dataMember. mm2 ltac:(first [apply mon_varOrFunc | apply mon_typedef | apply mon_constdef | apply mon_modelParameter]). Qed.
Lemma mon_dataMembers el name : forall g acc s, mon s (dataMembers kind isref g el name acc s).
Proof. induction g as [|g IH]; intros acc s; [exact I|]. cbn [dataMembers]. mm2 ltac:(first [apply mon_dataMember | apply IH]). Qed.
Lemma mon_classBlock k conc name s : mon s (classBlock kind isref k conc name s).
Proof. unfold classBlock. mm2 ltac:(first [apply mon_classParams | apply mon_baseClass | apply mon_baseClasses | apply mon_dataMembers]). Qed.
Lemma mon_thisClass : forall g conc s, mon s (thisClass kind isref g conc s).
Proof. induction g as [|g IH]; intros conc s; [exact I|]. cbn [thisClass]. mm2 ltac:(first [apply mon_classBlock | apply IH]). Qed.
Lemma mon_parseFile : forall g acc s, mon s (parseFile kind isref g acc s).
Proof. induction g as [|g IH]; intros acc s; [exact I|]. cbn [parseFile]. mm2 ltac:(first [apply mon_thisClass | apply IH]). Qed.
Ltac seek := let H := fresh "OK" in let HL := fresh in intro H; apply ok_look in H; destruct H as [H HL]; rewrite ?HL in *; clear HL.
Ltac dead := solve [exact I | apply wp_fail | intros [? _]; discriminate].
Ltac toks18 Hd := match goal with |- context [hd_tok ?x] => destruct (hd_tok x) as [[]| | | | | | | | | | | | | | | | |] eqn:Hd end.

Lemma wp_bad {A} (r : res A) s P : mon (fail s) r -> wp r P. Proof. intro M. apply (wp_mon (fail s)); [exact M|]. intro Z. now apply ok_fail in Z. Qed.
Lemma wp_constEnd {A} stmt (k : option node -> st -> res A) r s P : (forall r s', mon s' (k r s')) ->
  (ok s -> (stmt = true -> hd_tok (toks s) = Semi) -> wp (k r s) P) -> wp (constEnd stmt k r s) P.
Proof.
  intros M K. apply (wp_mon s); [now apply mon_constEnd|]. intro O. unfold constEnd. cbv zeta. destruct stmt; [|apply K; [exact O | discriminate]].
  assert (B : wp (k r (fail (look s))) P) by (eapply wp_bad, M).
  destruct (hd_tok (toks (look s))) eqn:Hd; try exact B. apply (wp_mon (look s)); [apply M|]. intro Z. apply ok_look in Z. destruct Z as [Z HL]. rewrite HL in *. now apply K.
Qed.
Lemma wp_value {A} s (k : node -> st -> res A) P : (forall n s', mon s' (k n s')) ->
  (forall e n s2, ok s2 -> null n = false -> RY false e n -> took s (map E e) s2 -> wp (k n s2) P) -> (forall s2, ok s2 -> wp (k NNull s2) P) ->
  wp (expr (Level 0) (look s) k) P.
Proof.
  intros M K K0. apply (wp_look s (fun x => expr (Level 0) x k)). { intro. now apply mon_expr. } intros O HL. apply wp_expr; [now right | exact M |].
  intros n e s2 O2 T2 D2 N1 N2 _. destruct (null n) eqn:N; [destruct n; try discriminate; now apply K0|]. apply (K e); auto; [now apply N2 | now split].
Qed.
Lemma took_cons s t s1 u s2 : took s [t] s1 -> took s1 u s2 -> took s (t :: u) s2. Proof. intros H1 H2. exact (took_app _ _ _ _ _ H1 H2). Qed.
Lemma wp_constantDef {A} req stmt s (k : option node -> st -> res A) P : (forall r s', mon s' (k r s')) ->
  (forall ts n s2, ok s2 -> Init RY ts n -> took s ts s2 -> (req = true -> ts <> []) -> (stmt = true -> hd_tok (toks s2) = Semi) -> wp (k (Some n) s2) P) ->
  wp (constantDef req stmt s k) P.
Proof.
  intros M K. unfold constantDef. cbv zeta. apply (wp_mon (look s)). { unfold tok_of. mm ltac:(now apply mon_constEnd). } seek.
  assert (B : wp (if req then constEnd stmt k None (if stmt then skip (fail s) else fail s) else constEnd stmt k (Some NNull) s) P).
  { destruct req.
    - apply wp_bad with s. destruct stmt; [apply (mon_from _ (skip (fail s))); [oks|]|]; now apply mon_constEnd.
    - apply wp_constEnd; [exact M|]. intros O HS. apply (K []); auto; [constructor | apply took_0 | discriminate]. }
  destruct (hd_tok (toks s)) as [[]| | | | | | | | | | | | | | | | |] eqn:Hd; try exact B. destruct o as [|o]; [|exact B]. clear B.
  assert (T1 := took_drop s _ Hd ltac:(discriminate)).
  assert (B : wp (expr (Level 0) (look (drop s)) (fun n s2 => if null n then constEnd stmt k None (fail s2) else constEnd stmt k (Some n) s2)) P).
  { apply wp_value. { mm ltac:(now apply mon_constEnd). }
    - intros e n s2 O2 N HY T. rewrite N. apply wp_constEnd; [exact M|]. intros _ HS. apply (K (E (TAssign 0) :: map E e)); auto; [now constructor | exact (took_cons _ _ _ _ _ T1 T) | discriminate].
    - intros s2 O2. cbn [null]. eapply wp_bad. now apply mon_constEnd. }
  destruct (tok_of (drop s)); try exact B. exact I.
Qed.
Lemma wp_paramEnd {A} (k : option node -> st -> res A) n s P : (forall r s', mon s' (k r s')) ->
  (ok s -> null n = false -> hd_tok (toks s) = Semi -> wp (k (Some n) s) P) -> wp (paramEnd k n s) P.
Proof.
  intros M K. unfold paramEnd. cbv zeta. destruct (null n) eqn:N.
  - apply wp_bad with s. mm ltac:(apply M).
  - apply (wp_mon (look s)). { mm ltac:(apply M). } seek. assert (B : wp (k (Some n) (fail s)) P) by (eapply wp_bad, M). destruct (hd_tok (toks s)); try exact B. now apply K.
Qed.
Lemma wp_parameterDef {A} s (k : option node -> st -> res A) P : (forall r s', mon s' (k r s')) ->
  (forall e n s2, ok s2 -> RY false e n -> took s (E (TAssign 0) :: map E e) s2 -> hd_tok (toks s2) = Semi -> wp (k (Some n) s2) P) ->
  wp (parameterDef s k) P.
Proof.
  intros M K. unfold parameterDef. cbv zeta. apply (wp_mon (look s)). { unfold tok_of. mm ltac:(now apply mon_paramEnd). } seek.
  assert (B : wp (paramEnd k NNull s) P) by (apply wp_paramEnd; [exact M | discriminate]).
  destruct (hd_tok (toks s)) as [[]| | | | | | | | | | | | | | | | |] eqn:Hd; try exact B. destruct o as [|o]; [|exact B]. clear B.
  assert (T1 := took_drop s _ Hd ltac:(discriminate)).
  assert (B : wp (expr (Level 0) (look (drop s)) (fun n s2 => paramEnd k n s2)) P).
  { apply wp_value. { mm ltac:(now apply mon_paramEnd). }
    - intros e n s2 O2 N HY T. apply wp_paramEnd; [exact M|]. intros _ _ HS. apply (K e); auto. exact (took_cons _ _ _ _ _ T1 T).
    - intros s2 O2. apply wp_paramEnd; [exact M | discriminate]. }
  destruct (tok_of (drop s)); try exact B. apply wp_paramEnd; [exact M | discriminate].
Qed.

(* a comma or none *)
Definition commas (u : list stok) : Prop := u = [] \/ u = [E TComma].
Lemma comma_took s : ok (snd (comma s)) -> exists u, took s u (snd (comma s)) /\ (if fst (comma s) then u = [E TComma] else u = []).
Proof.
  intro O. pose proof (ok_comma _ O) as O1. unfold comma in *. cbv zeta in *. assert (HL : look s = s).
  { destruct (hd_tok (toks (look s))) as [[]| | | | | | | | | | | | | | | | |]; cbn [snd] in O; (change (ok (look s)) in O || idtac); now apply ok_look in O. }
  rewrite HL. destruct (hd_tok (toks s)) as [[]| | | | | | | | | | | | | | | | |] eqn:Hd; cbn [fst snd]; try (exists []; split; [apply took_0 | reflexivity]).
  exists [E TComma]. split; [|reflexivity]. now apply took_drop.
Qed.
Lemma wp_comma {A} s (k : st -> res A) P : (forall s', mon s' (k s')) -> (forall u s', ok s' -> commas u -> took s u s' -> wp (k s') P) -> wp (k (snd (comma s))) P.
Proof.
  intros M K. apply (wp_mon (snd (comma s))); [apply M|]. intro O. destruct (comma_took _ O) as (u & T & C). apply (K u); auto. destruct (fst (comma s)); [now right | now left].
Qed.

Lemma has_default_snoc acc t i n : has_default (acc ++ [(t, i, n)]) = valued n. Proof. unfold has_default. now rewrite last_last. Qed.
Definition classParam g acc t s1 : res (list (N * N * node)) :=
  if isref t then Unmodelled else
        match hd_tok (toks s1) with
        | E (TIdent i) =>
          match tok_of (drop s1) with
          | E TOpen | E TOpenSq | E TSquare => Unmodelled
          | _ => constantDef (has_default acc) false (drop s1) (fun r s3 =>
                   match r with None => Done acc (fail s3) | Some n => classParams kind isref g (acc ++ [(t, i, n)]) (snd (comma s3)) end)
          end
        | _ => Done acc (fail (drop s1))
        end.
Lemma mon_classParam g acc t s1 : mon s1 (classParam g acc t s1).
Proof. unfold classParam, tok_of. mm ltac:(apply mon_constantDef). all: eapply mon_from; [apply ok_comma | apply mon_classParams]. Qed.
Lemma wp_classParams : forall g acc s, wp (classParams kind isref g acc s) (fun r s' => exists u, took s u s' /\
  ((u = [E TClose] /\ r = acc /\ acc <> []) \/ exists v ps, u = v ++ [E TClose] /\ r = acc ++ ps /\ CParams RY kind isref true (has_default acc) v ps)).
Proof.
  induction g as [|g IH]; intros acc s; [exact I|]. cbn [classParams]. cbv zeta. apply (wp_mon (look s)). 
  { unfold tok_of in *. mm ltac:(apply mon_constantDef). all: eapply mon_from; [apply ok_comma | apply mon_classParams]. }
  seek. destruct (hd_tok (toks s)) as [[]| | | | | | | | | | | | | | | | |] eqn:Hd; try dead.
  - (* a type *) assert (T1 := took_drop s _ Hd ltac:(discriminate)). match type of Hd with _ = E (TType ?x) => rename x into t end.
    assert (B : kind t <> KdVoid -> kind t <> KdAtom -> wp (classParam g acc t (look (drop s))) (fun r s' => exists u, took s u s' /\
  ((u = [E TClose] /\ r = acc /\ acc <> []) \/ exists v ps, u = v ++ [E TClose] /\ r = acc ++ ps /\ CParams RY kind isref true (has_default acc) v ps))).
    { intros K1 K2. set (s1 := drop s) in *. clearbody s1. apply (wp_look s1 (classParam g acc t)). { intro. apply mon_classParam. } intros O1 _. unfold classParam. destruct (isref t) eqn:R; [exact I|].
      destruct (hd_tok (toks s1)) as [[]| | | | | | | | | | | | | | | | |] eqn:Hd1; try dead. assert (T2 := took_drop s1 _ Hd1 ltac:(discriminate)).
      assert (B : wp (constantDef (has_default acc) false (drop s1) (fun r s3 =>
                   match r with None => Done acc (fail s3) | Some m => classParams kind isref g (acc ++ [(t, n, m)]) (snd (comma s3)) end)) (fun r s' => exists u, took s u s' /\
  ((u = [E TClose] /\ r = acc /\ acc <> []) \/ exists v ps, u = v ++ [E TClose] /\ r = acc ++ ps /\ CParams RY kind isref true (has_default acc) v ps))).
      { apply wp_constantDef. { intros [m|] s'; [|oks; intro Z; now apply ok_fail in Z]. eapply mon_from; [apply ok_comma | apply mon_classParams]. }
        intros ts m s3 O3 HI T3 HD _.
        apply (wp_comma s3 (fun x => classParams kind isref g (acc ++ [(t, n, m)]) x)). { intro. apply mon_classParams. }
        intros c s4 O4 HC T4. eapply wp_imp; [apply IH|]. cbv beta. intros r s' (u & T5 & HU) _.
        pose proof (took_app _ _ _ _ _ T1 (took_app _ _ _ _ _ T2 (took_app _ _ _ _ _ T3 (took_app _ _ _ _ _ T4 T5)))) as TT.
        eexists. split; [exact TT|]. right. destruct HU as [(-> & -> & _)|(v & ps & -> & -> & HP)].
        - exists (E (TType t) :: E (TIdent n) :: ts ++ c), [(t, n, m)]. split; [cbn; now rewrite <- app_assoc|]. split; [reflexivity|]. apply CP_last; auto. destruct HC as [-> | ->]; now constructor.
        - exists (E (TType t) :: E (TIdent n) :: ts ++ c ++ v), ((t, n, m) :: ps). split; [cbn; now rewrite <- !app_assoc|]. split; [now rewrite <- app_assoc|].
          rewrite has_default_snoc in HP. apply CP_more; auto. destruct HC as [-> | ->]; now constructor. }
      destruct (tok_of (drop s1)) as [[]| | | | | | | | | | | | | | | | |]; try exact B; exact I. }
    unfold classParam in B. destruct (kind t) eqn:K; try (apply B; congruence); dead.
  - (* the end *) assert (T1 := took_drop s _ Hd ltac:(discriminate)). destruct acc as [|x acc]; [dead|]. intros _. exists [E TClose]. split; [exact T1|]. left. repeat split. discriminate.
Qed.

Lemma wp_baseClass name s : wp (baseClass kind name s) (fun o s' => exists u, took s u s' /\ Base kind true name u o).
Proof.
  unfold baseClass. cbv zeta. apply (wp_mon (look s)). { mm idtac. } seek.
  destruct (hd_tok (toks s)) as [[]| | | | | | | | | | | | | | | | |] eqn:Hd; try dead; assert (T1 := took_drop s _ Hd ltac:(discriminate)).
  - match type of Hd with _ = E (TType ?x) => rename x into t end. 
    assert (B : forall id, named kind t id -> ident_of kind t = id -> wp (if N.eqb (ident_of kind t) name then Done None (fail (drop s)) else Done (Some t) (drop s)) (fun o s' => exists u, took s u s' /\ Base kind true name u o)).
    { intros id Hn ->. destruct (N.eqb id name) eqn:Hid; [dead|]. intros _. exists [E (TType t)]. split; [exact T1|]. apply Ba_one with id; [exact Hn | now apply N.eqb_neq]. }
    unfold ident_of in *. destruct (kind t) eqn:K; try dead; eapply B; unfold named; eauto.
  - match goal with |- wp ?e ?P => apply (wp_mon (look (drop s))) end. { mm idtac. } seek.
    assert (B : wp (Done None (drop s)) (fun o s' => exists u, took s u s' /\ Base kind true name u o)). { intros _. exists [E TLocal]. split; [exact T1 | now constructor]. }
    destruct (hd_tok (toks (drop s))) as [[]| | | | | | | | | | | | | | | | |] eqn:Hd1; try exact B; exact I.
Qed.
Lemma wp_baseClasses name : forall g acc s, wp (baseClasses kind g name acc s) (fun r s' => exists u bs, took s u s' /\ r = acc ++ bs /\ Bases kind true name u bs).
Proof.
  induction g as [|g IH]; intros acc s; [exact I|]. cbn [baseClasses]. cbv zeta. apply (wp_mon (look s)). { mm ltac:(first [apply mon_baseClass | apply mon_baseClasses]). } seek.
  assert (B : wp (Done acc s) (fun r s' => exists u bs, took s u s' /\ r = acc ++ bs /\ Bases kind true name u bs)).
  { intros _. exists [], []. split; [apply took_0|]. split; [now rewrite app_nil_r | constructor]. }
  destruct (hd_tok (toks s)) as [[]| | | | | | | | | | | | | | | | |] eqn:Hd; try exact B. destruct o; try exact B. assert (T1 := took_drop s _ Hd ltac:(discriminate)).
  eapply wp_bind; [apply wp_baseClass | intros; apply mon_baseClasses|]. cbv beta. intros b s2 (u & T2 & HB) O2. eapply wp_imp; [apply IH|]. cbv beta. intros r s' (v & bs & T3 & -> & HS) _.
  exists (E (TBin Add) :: u ++ v), (match b with Some t => t :: bs | None => bs end). split; [exact (took_cons _ _ _ _ _ T1 (took_app _ _ _ _ _ T2 T3))|]. split.
  - destruct b; [now rewrite <- app_assoc | reflexivity].
  - now constructor.
Qed.

(* functions *)
Definition PF (acc : fparams) (dots : bool) (s : st) (r : fparams * bool) (s' : st) : Prop :=
  exists u, took s u s' /\ ((u = [E TClose] /\ r = (acc, dots)) \/ dots = false /\ exists v ps d, u = v ++ [E TClose] /\ r = (acc ++ ps, d) /\ Params1 true v ps d).
Lemma wp_next rec acc dots s (P : fparams * bool -> st -> Prop) : (forall acc dots s, mon s (rec acc dots s)) ->
  (forall c s', ok s' -> commas c -> took s c s' -> (dots = true -> c = []) -> wp (rec acc dots s') P) -> wp (nextParam rec acc dots s) P.
Proof.
  intros M K. unfold nextParam. pose proof (comma_took s) as C. destruct (comma s) as [c s1]. cbn [fst snd] in C.
  destruct (c && dots) eqn:Z; [eapply wp_bad, M|]. apply (wp_mon s1); [apply M|]. intro O. destruct (C O) as (u & T & HU). apply (K u); auto.
  - destruct c; [now right | now left].
  - intros ->. destruct c; [discriminate | exact HU].
Qed.
Lemma wp_paramDecl rec acc dots c s (P : fparams * bool -> st -> Prop) : (forall acc dots s, mon s (rec acc dots s)) ->
  (forall t i sep s', ok s' -> dots = false -> commas sep -> took s (E (TType t) :: E (TIdent i) :: sep) s' -> wp (rec (acc ++ [(c, t, i)]) false s') P) ->
  wp (paramDecl rec acc dots c s) P.
Proof.
  intros M K. unfold paramDecl. cbv zeta. apply (wp_mon (look s)). { unfold tok_of. mm ltac:(now apply mon_next). } seek.
  destruct (hd_tok (toks s)) as [[]| | | | | | | | | | | | | | | | |] eqn:Hd; try (eapply wp_bad; now apply mon_next). assert (T1 := took_drop s _ Hd ltac:(discriminate)).
  match type of Hd with _ = E (TType ?x) => rename x into t end. set (s1 := drop s) in *. clearbody s1.
  apply (wp_mon (look s1)). { unfold tok_of. mm ltac:(now apply mon_next). } seek.
  destruct (hd_tok (toks s1)) as [[]| | | | | | | | | | | | | | | | |] eqn:Hd1; try (eapply wp_bad; now apply mon_next). assert (T2 := took_drop s1 _ Hd1 ltac:(discriminate)).
  match type of Hd1 with _ = E (TIdent ?x) => rename x into i end. set (s2 := drop s1) in *. clearbody s2.
  assert (B : wp (nextParam rec (acc ++ [(c, t, i)]) dots (if dots then fail s2 else s2)) P).
  { destruct dots; [eapply wp_bad; now apply mon_next|]. apply wp_next; [exact M|]. intros sep s' O HC T3 _. apply (K t i sep); auto. exact (took_cons _ _ _ _ _ T1 (took_cons _ _ _ _ _ T2 T3)). }
  destruct (tok_of s2) as [[]| | | | | | | | | | | | | | | | |]; try exact B; exact I.
Qed.
Lemma PF_param acc s c t i sep s1 r s' : commas sep -> took s (param c t i ++ sep) s1 -> PF (acc ++ [(c, t, i)]) false s1 r s' -> PF acc false s r s'.
Proof.
  intros HC T (u & T2 & HU). eexists. split; [exact (took_app _ _ _ _ _ T T2)|]. right. split; [reflexivity|]. destruct HU as [(-> & ->)|(_ & v & ps & d & -> & -> & HP)].
  - exists (param c t i ++ sep), [(c, t, i)], false. split; [reflexivity|]. split; [reflexivity|]. constructor. destruct HC as [-> | ->]; now constructor.
  - exists (param c t i ++ sep ++ v), ((c, t, i) :: ps), d. split; [now rewrite <- !app_assoc|]. split; [now rewrite <- app_assoc|]. constructor; [|exact HP]. destruct HC as [-> | ->]; now constructor.
Qed.
Lemma wp_funcParams : forall g acc dots s, wp (funcParams g acc dots s) (PF acc dots s).
Proof.
  induction g as [|g IH]; intros acc dots s; [exact I|]. cbn [funcParams]. cbv zeta.
  apply (wp_mon (look s)). { mm ltac:(first [apply mon_next | apply mon_paramDecl]; apply mon_funcParams). } seek.
  destruct (hd_tok (toks s)) as [[]| | | | | | | | | | | | | | | | |w] eqn:Hd; try dead.
  - apply wp_paramDecl; [apply mon_funcParams|]. intros t0 i sep s' O -> HC T. eapply wp_imp; [apply IH|]. intros r s2 HP _. now apply (PF_param acc s false t0 i sep s').
  - intros _. exists [E TClose]. split; [now apply took_drop | now left].
  - destruct o as [|o]; [eapply wp_bad; apply mon_next, mon_funcParams | dead].
  - apply wp_paramDecl; [apply mon_funcParams|]. intros t i sep s' O -> HC T. eapply wp_imp; [apply IH|]. intros r s2 HP _.
    apply (PF_param acc s true t i sep s'); auto. exact (took_cons _ _ _ _ _ (took_drop s _ Hd ltac:(discriminate)) T).
  - destruct w; try dead. assert (T1 := took_drop s _ Hd ltac:(discriminate)). destruct dots; [eapply wp_bad; apply mon_next, mon_funcParams|].
    apply wp_next; [apply mon_funcParams|]. intros c s' O _ T2 HC. rewrite (HC eq_refl) in T2. eapply wp_imp; [apply IH|]. intros r s2 (u & T3 & HU) _.
    destruct HU as [(-> & ->)|(Z & _)]; [|discriminate]. eexists. split; [exact (took_app _ _ _ _ _ T1 (took_app _ _ _ _ _ T2 T3))|]. right. split; [reflexivity|].
    exists [Other Ellipsis], [], true. split; [reflexivity|]. split; [now rewrite app_nil_r | constructor].
Qed.
Lemma wp_fbody s : wp (parseFunctionBody s) (fun tr s' => exists u, took s u s' /\ hd_tok (toks s') = CloseC /\ Sts RX RY false false u tr).
Proof.
  unfold parseFunctionBody. cbv zeta. apply (wp_mon (look s)). { mm ltac:(apply mon_run). } seek.
  assert (X : wp (sbind (srun (plenty (toks s)) (Statements false false) s) (fun ss s2 =>
         let s3 := look s2 in match hd_tok (toks s3) with CloseC => Done ss s3 | _ => Done ss (fail s3) end))
      (fun tr s' => exists u, took s u s' /\ hd_tok (toks s') = CloseC /\ Sts RX RY false false u tr)).
  { eapply wp_bind; [apply wp_run | mm idtac|]. cbn [PT]. intros ss s2 HS O2. cbv zeta. apply (wp_mon (look s2)). { mm idtac. } seek.
    destruct (hd_tok (toks s2)) as [[]| | | | | | | | | | | | | | | | |] eqn:Hd2; try apply wp_fail. intros _.
    destruct HS as [F|(_ & u & TU & HS)]; [unfold fin in F; congruence|]. exists u. now split. }
  destruct (hd_tok (toks s)) eqn:Hd; try exact X. intros _. exists []. split; [apply took_0|]. split; [exact Hd | constructor].
Qed.
(* the body up to its last token, which makeFunctionSymbol reads *)
Definition PBody (virt : bool) (s : st) (o : option code) (s' : st) : Prop :=
  match o with
  | Some (CCode tr) => exists u, took s (OpenC :: u) s' /\ hd_tok (toks s') = CloseC /\ Sts RX RY false false u tr
  | Some CNative => took s [Other WNative] s'
  | Some CPure => virt = true /\ hd_tok (toks s') = Semi /\ took s [] s'
  | None => False
  end.
Lemma wp_funcBody virt s : wp (funcBody virt s) (PBody virt s).
Proof.
  unfold funcBody. cbv zeta. apply (wp_mon (look s)). { mm ltac:(apply mon_body_of). } seek.
  destruct (hd_tok (toks s)) as [[]| | | | | | | | | | | | | | | | |w] eqn:Hd; try dead.
  - destruct virt; [|dead]. intros _. repeat split. exact Hd.
  - eapply wp_bind; [apply wp_fbody | mm idtac|]. cbv beta. intros ss s2 (u & T & H2 & HS) O2 _. rewrite H2. cbn [PBody]. exists u. split; [|now split].
    exact (took_cons _ _ _ _ _ (took_drop s _ Hd ltac:(discriminate)) T).
  - destruct w; try dead. intros _. cbn [PBody]. now apply took_drop.
Qed.
Lemma wp_function over virt constr ty id s : wp (function over virt constr ty id s) (fun o s' => exists f u b ps params dots c,
  o = Some f /\ took s u s' /\ u = ps ++ E TClose :: b /\ Params true ps params dots /\ (constr = true -> params <> []) /\ Code RX RY true virt b c /\ (dots = true -> c = CNative) /\
  f = {| f_override := over; f_virtual := virt; f_constr := constr; f_ty := ty; f_id := id; f_params := params; f_dots := dots; f_code := c |}).
Proof.
  unfold function.
  eapply (wp_bind _ _ (fun r s1 => exists params dots c ps s0, r = Some (params, dots, c) /\ took s (ps ++ [E TClose]) s0 /\ PBody virt s0 (Some c) s1 /\
      Params true ps params dots /\ (constr = true -> params <> []) /\ (dots = true -> c = CNative))).
  - unfold funcRest. eapply wp_bind; [apply wp_funcParams | mm ltac:(apply mon_funcBody)|]. intros [params dots] s1 (u & T1 & HU) O1. cbn [fst snd].
    assert (HP : exists ps, u = ps ++ [E TClose] /\ Params true ps params dots).
    { destruct HU as [(-> & Z)|(_ & v & ps & d & -> & Z & HP)]; injection Z as -> ->; [exists []; split; [reflexivity | constructor] | exists v; split; [reflexivity | now constructor]]. }
    destruct HP as (ps & -> & HP). destruct (constr && match params with [] => true | _ => false end) eqn:Zc; [dead|].
    eapply wp_bind; [apply wp_funcBody | mm idtac|]. intros [c|] s2 HB O2; [|destruct HB]. destruct (dots && negb match c with CNative => true | _ => false end) eqn:Zd; [dead|].
    intros _. exists params, dots, c, ps, s1. repeat split; auto; try apply T1. + intros ->. now destruct params. + intros ->. now destruct c.
  - mm idtac.
  - cbv beta. intros r s1 (params & dots & c & ps & s0 & -> & T1 & HB & HP & HC & HD) O1. cbv zeta. apply (wp_mon (look s1)). { mm idtac. } seek.
    assert (B : forall b x, x <> E TEnd -> hd_tok (toks s1) = x -> took s0 b s1 -> Code RX RY true virt (b ++ [x]) c ->
      wp (Done (Some {| f_override := over; f_virtual := virt; f_constr := constr; f_ty := ty; f_id := id; f_params := params; f_dots := dots; f_code := c |}) (drop s1)) (fun o s' => exists f u b ps params dots c,
  o = Some f /\ took s u s' /\ u = ps ++ E TClose :: b /\ Params true ps params dots /\ (constr = true -> params <> []) /\ Code RX RY true virt b c /\ (dots = true -> c = CNative) /\
  f = {| f_override := over; f_virtual := virt; f_constr := constr; f_ty := ty; f_id := id; f_params := params; f_dots := dots; f_code := c |})).
    { intros b x Nx Hx Tb HK _. eexists _, _, (b ++ [x]), ps, params, dots, c. split; [reflexivity|]. split; [exact (took_app _ _ _ _ _ T1 (took_app _ _ _ _ _ Tb (took_drop s1 _ Hx Nx)))|].
      split; [now rewrite <- app_assoc|]. auto. }
    destruct c as [| |tr]; cbn [PBody] in HB.
    + destruct (hd_tok (toks s1)) as [[]| | | | | | | | | | | | | | | | |w] eqn:Hd; try dead; eapply B; try exact HB; try reflexivity; try discriminate; now constructor.
    + destruct HB as (-> & Hd & Tb). rewrite Hd. apply (B [] Semi); auto; [discriminate | now constructor].
    + destruct HB as (u & Tb & Hd & HS). rewrite Hd. apply (B (OpenC :: u) CloseC); auto; [discriminate | now constructor].
Qed.
End Sound.
