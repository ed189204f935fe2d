(* StmtSound.v: what the statement parser accepts without a word is a phrase of the grammar, with its tree. *)
From Coq Require Import List PeanoNat NArith Lia Bool.
From Verif Require Import Base ExprModel ExprSpec ExprProofs ExprValue ExprComplete StmtModel StmtSpec StmtProofs.
Import ListNotations.
Open Scope nat_scope.
(* ---- what is not NULL was read ---- *)
Definition some (n : node) : bool := negb (null n).
Definition brought (t : task) : Prop := match t with Ident _ | Question _ | Args _ _ => True | _ => some (tnode t) = true end.
Definition nz (A : Prop) (ts : list tok) (r : ExprModel.res) : Prop :=
  match r with Got n rest false => exists pre, ts = pre ++ rest /\ (some n = true -> A \/ pre <> []) | _ => True end.
Lemma nz_flag (A : Prop) e ts r : nz A ts r -> nz A ts (flag e r).
Proof. destruct r as [n l b| | |], e; cbn; auto. Qed.
Lemma nz_got (A : Prop) n ts e : (some n = true -> A) -> nz A ts (Got n ts e).
Proof. intro H. destruct e; cbn; auto. exists []. auto. Qed.
Lemma nz_err (A : Prop) n ts l : nz A ts (Got n l true). Proof. exact I. Qed.
Lemma nz_weak (A B : Prop) ts r : (A -> B) -> nz A ts r -> nz B ts r.
Proof. intro H. destruct r as [n l []| | |]; cbn; auto. intros (pre & -> & K). exists pre. split; auto. intro X. destruct (K X); auto. Qed.
Lemma nz_tl (A : Prop) t ts r : first ts = t -> plain t -> nz True (tl ts) r -> nz A ts r.
Proof.
  destruct ts as [|x ts]; cbn; intros <- P; [destruct P|]. destruct r as [n l []| | |]; cbn; auto. intros (pre & -> & K).
  exists (x :: pre). split; [reflexivity|]. intro X. right. discriminate.
Qed.
Lemma nz_bind (A B : Prop) ts r k : nz B ts r -> (B -> A) -> (forall n ts', nz (A \/ some n = true) ts' (k n ts')) -> nz A ts (bind r k).
Proof.
  intros H W K. destruct r as [n l e| | |]; cbn [bind]; try exact I. destruct e.
  - destruct (k n l) as [m l' []| | |]; exact I.
  - rewrite flag_false. cbn in H. destruct H as (pre & -> & R). specialize (K n l).
    destruct (k n l) as [m l' []| | |]; cbn in *; auto. destruct K as (pre' & -> & R'). exists (pre ++ pre'). rewrite app_assoc. split; [reflexivity|].
    assert (P1 : pre <> [] -> pre ++ pre' <> []) by (destruct pre; [congruence | discriminate]).
    assert (P2 : pre' <> [] -> pre ++ pre' <> []) by (destruct pre; [auto | discriminate]).
    intro X. destruct (R' X) as [[Y|Y]|Y]; auto. destruct (R Y); auto.
Qed.
Lemma nz_peek (A : Prop) ts k : (forall t, t <> TErr -> first ts = t -> nz A ts (k t ts)) -> nz A ts (peek ts k).
Proof.
  intro H. destruct ts as [|t r]; [apply (H TEnd); easy|]. destruct t; try (apply H; easy). cbn [peek].
  destruct r; match goal with |- nz _ _ (flag true ?x) => destruct x as [? ? []| | |]; exact I end.
Qed.
Lemma nz_get (A : Prop) ts k : (forall t, t <> TErr -> first ts = t -> nz A ts (k t (tl ts))) -> nz A ts (get ts k).
Proof. intro H. apply nz_peek. intros. apply H; auto. Qed.
Lemma nz_minMaxSizeof (A : Prop) n ts k :
  (some n = true -> A) -> (forall (B : Prop) m l, (some m = true -> B) -> nz B l (k m l)) -> first ts <> TErr -> nz A (ts) (minMaxSizeof n ts k).
Proof.
  intros N K F. unfold minMaxSizeof. apply nz_peek. intros d D E1.
  assert (G : forall B : Prop, forall l, nz B l (peek l (fun f ts3 =>
      match f with
      | TOf (Proxy i) => k (NOf (Proxy i) n) (tl ts3)
      | TOf Constantof => peek (tl ts3) (fun c ts4 => match c with TOpen => flag true (k NNull ts4) | _ => k (NOf Constantof n) ts4 end)
      | TOf Instanceof => peek (tl ts3) (fun c ts4 => match c with TOpen => Unmod | _ => k (NOf Instanceof n) ts4 end)
      | TOf Atomof => if null n then Abort else k (NOf Atomof n) (tl ts3)
      | _ => k NNull ts3
      end))).
  { intros B l. apply nz_peek. intros f Ff El.
    destruct f; try (apply K; discriminate). destruct k0.
    - apply (nz_tl _ _ _ _ El); [exact I|]. apply K. auto.
    - apply (nz_tl _ _ _ _ El); [exact I|]. apply nz_peek. intros c C Ec.
      destruct c; try (apply K; auto). apply nz_flag, K. auto.
    - apply (nz_tl _ _ _ _ El); [exact I|]. apply nz_peek. intros c C Ec.
      destruct c; try (apply K; auto). exact I.
    - apply (nz_tl _ _ _ _ El); [exact I|]. destruct (null n); [exact I|]. apply K; auto. }
  destruct d; try apply G. apply (nz_tl _ _ _ _ E1); [exact I|]. apply G.
Qed.
Ltac side2 := solve [ assumption | exact I | eapply is_op_plain; eassumption | eapply unary_plain; eassumption | unfold brought, some in *; cbn [null tnode negb] in *; intros; subst; try discriminate; try tauto
   | unfold some; intros; match goal with H : null _ = _ |- _ => rewrite H in * end; cbn in *; try discriminate; tauto ].
Lemma nz_step rec t ts :
  (forall t' ts', nz (brought t') ts' (rec t' ts')) -> nz (brought t) ts (ExprModel.step rec t ts).
Proof.
  intros IH.
  assert (R : forall (A : Prop) t' ts', (brought t' -> A) -> nz A ts' (rec t' ts')).
  { intros A t' ts' H. eapply nz_weak; [exact H | apply IH]. }
  clear IH.
  assert (OPN : forall k, brought (operand k) -> False) by (intro k; unfold operand; now destruct (Nat.eqb k 6)).
  destruct t; cbn [ExprModel.step brought tnode]; cbv zeta;
  repeat first
    [ exact I
    | apply nz_err
    | match goal with |- nz _ _ (match ?x with _ => _ end) => destruct x eqn:? end
    | apply nz_got; side2
    | apply R; intro HH; now apply OPN in HH
    | apply R; side2
    | apply nz_flag
    | apply nz_minMaxSizeof; [side2 | intros | congruence]
    | match goal with
      | |- nz ?A _ (bind (rec ?t' ?l) _) => apply (nz_bind A (brought t')); [apply R; auto | first [intro HH; now apply OPN in HH | side2] | intros]
      end
    | match goal with
      | H : first ?l = ?p |- nz _ ?l _ => match goal with |- context [tl l] => apply (nz_tl _ _ _ _ H); [side2|] end
      end
    | apply nz_get; intros
    | apply nz_peek; intros
    | match goal with |- context [match ?x with _ => _ end] => destruct x eqn:? end ].
Qed.
Lemma nz_run g : forall t ts, nz (brought t) ts (run g t ts).
Proof. induction g as [|g IH]; intros t ts; [exact I|]. cbn [run]. apply nz_step, IH. Qed.

(* ---- errors stay ---- *)
Definition ok (s : st) : Prop := err s = false /\ lost s = false.
Definition mon {A} (s : st) (r : res A) : Prop := match r with Done _ s' => ok s' -> ok s | _ => True end.
Lemma ok_look s : ok (look s) -> ok s /\ look s = s.
Proof. unfold look. destruct (toks s) as [|[[]| | | | | | | | | | | | | | | | |] r]; intro H; auto. destruct H; discriminate. Qed.
Lemma ok_fail s : ok (fail s) -> False. Proof. intros [H _]. discriminate. Qed.
Lemma mon_from {A} s s' (r : res A) : (ok s' -> ok s) -> mon s' r -> mon s r. Proof. destruct r; cbn; auto. Qed.
Lemma mon_bind {A B} s (r : res A) (k : A -> st -> res B) : mon s r -> (forall a s', mon s' (k a s')) -> mon s (sbind r k).
Proof. destruct r as [a s1| | |]; cbn; auto. intros H K. apply (mon_from s s1); auto. Qed.
Lemma mon_expect {A} q t s (y n : st -> res A) : (forall s', mon s' (y s')) -> (forall s', mon s' (n s')) -> mon s (expect q t s y n).
Proof.
  intros Y N. unfold expect. destruct (same _ t).
  - eapply mon_from; [|apply Y]. intro H. now apply (ok_look s).
  - eapply mon_from; [|apply N]. destruct q; intro H; [now apply ok_look | now apply ok_fail in H].
Qed.
Lemma mon_expr {A} t s (k : node -> st -> res A) : (forall n s', mon s' (k n s')) -> mon s (expr t s k).
Proof.
  intro K. unfold expr. destruct (run _ _ _) as [n rest e| | |]; try exact I. eapply mon_from; [|apply K]. intros [H1 H2]. cbn in *.
  apply orb_false_iff in H1, H2. now split.
Qed.
Ltac oks := let H := fresh in intro H; repeat first
  [ exact H | exfalso; exact (ok_fail _ H)
  | match type of H with
    | ok (look _) => apply ok_look in H; destruct H as [H _] | ok (drop ?x) => change (ok x) in H | ok (set_toks ?x _) => change (ok x) in H
    | ok (set_dfl ?x _) => change (ok x) in H | ok (set_asf ?x _) => change (ok x) in H end ].
Ltac moves s s' := lazymatch s' with s => idtac | _ => apply (mon_from s s'); [oks|] end.
Ltac mm R := repeat first
  [ exact I | progress cbv zeta | progress intros
  | match goal with |- mon ?s (Done _ ?s') => cbn [mon]; oks end
  | match goal with
    | |- mon ?s (expect _ _ ?s' _ _) => moves s s'; apply mon_expect
    | |- mon ?s (expr _ ?s' _) => moves s s'; apply mon_expr
    | |- mon ?s (sbind _ _) => apply mon_bind
    | |- mon ?s (match _ with _ => _ end) => match goal with |- mon _ (match ?x with _ => _ end) => destruct x end
    | |- mon ?s (?f ?s' _) => lazymatch type of s' with st => moves s s'; R end
    | |- mon ?s (?f ?s') => lazymatch type of s' with st => moves s s'; R end
    end ].
Lemma mon_initial {A} s (k : node -> st -> res A) : (forall n s', mon s' (k n s')) -> mon s (initial s k).
Proof. intro K. unfold initial, tok_of. mm ltac:(apply K). Qed.
Lemma mon_restOfDecls ty : forall g acc s, mon s (restOfDecls g ty acc s).
Proof. induction g as [|g IH]; intros acc s; [exact I|]. cbn [restOfDecls]. unfold tok_of. mm ltac:(first [apply mon_initial | apply IH]). Qed.
Lemma mon_parseDecl s : mon s (parseDecl s).
Proof. unfold parseDecl, tok_of. mm ltac:(first [apply mon_initial | apply mon_restOfDecls]). Qed.
Lemma mon_simple b c s : mon s (parseSimpleStatement b c s).
Proof. unfold parseSimpleStatement. mm ltac:(apply mon_parseDecl). Qed.
Lemma mon_restOfCase value : forall g acc s, mon s (restOfCase g value acc s).
Proof. induction g as [|g IH]; intros acc s; [exact I|]. cbn [restOfCase]. destruct value; mm ltac:(apply IH). Qed.
Section Mon.
Variable rec : stask -> st -> res (list tree).
Hypothesis R : forall t s, mon s (rec t s).
Lemma mon_body b c x s : mon s (body rec b c x s). Proof. unfold body. destruct (asf s); apply R. Qed.
Lemma mon_while p c x s : mon s (makeControlWhileNode rec p c x s). Proof. unfold makeControlWhileNode. mm ltac:(apply mon_body). Qed.
Lemma mon_forAssign p c s : mon s (forAssign rec p c s). Proof. unfold forAssign. mm ltac:(apply mon_while). Qed.
Lemma mon_forCond p s : mon s (forCond rec p s). Proof. unfold forCond. mm ltac:(apply mon_forAssign). Qed.
Lemma mon_forSemi p s : mon s (forSemi rec p s). Proof. unfold forSemi. mm ltac:(apply mon_forCond). Qed.
Lemma mon_if b c s : mon s (parseControlIf rec b c s). Proof. unfold parseControlIf. mm ltac:(first [apply mon_body | apply R]). Qed.
Lemma mon_for s : mon s (parseControlFor rec s). Proof. unfold parseControlFor. mm ltac:(first [apply mon_parseDecl | apply mon_forSemi]). Qed.
Lemma mon_which c s : mon s (parseControlSwitch rec c s). Proof. unfold parseControlSwitch. mm ltac:(apply R). Qed.
Lemma mon_control b c s : mon s (parseControlStatement rec b c s).
Proof. unfold parseControlStatement, parseControlWhile. mm ltac:(first [apply mon_if | apply mon_while | apply mon_for | apply mon_which]). Qed.
Lemma mon_step t s : mon s (step rec t s).
Proof.
  destruct t; cbn [step]; unfold tok_of; mm ltac:(first [apply mon_control | apply mon_simple | apply mon_body | apply mon_restOfCase | apply R]).
Qed.
End Mon.
Lemma mon_run g : forall t s, mon s (srun g t s).
Proof. induction g as [|g IH]; intros t s; [exact I|]. cbn [srun]. apply mon_step, IH. Qed.

(* ---- nothing is read at the end of the file ---- *)
Definition fin (s : st) : Prop := hd_tok (toks s) = E TEnd.
Definition nok {A} (r : res A) : Prop := match r with Done _ s' => ~ ok s' | _ => True end.
Lemma nok_bind {A B} (r : res A) (k : A -> st -> res B) : nok r -> (forall a s', mon s' (k a s')) -> nok (sbind r k).
Proof. destruct r as [a s1| | |]; cbn; auto. intros H K. specialize (K a s1). destruct (k a s1); cbn in *; auto. Qed.
Lemma nok_fail {A} (a : A) s : nok (Done a (fail s)). Proof. intro H. now apply ok_fail in H. Qed.
Lemma look_fin s : fin s -> look s = s. Proof. intro H. apply look_id. rewrite H. discriminate. Qed.
Lemma end_run g : forall t s, fin s -> nok (srun g t s).
Proof.
  induction g as [|g IH]; intros t s F; [exact I|]. cbn [srun]. pose proof (mon_run g) as M.
  destruct t as [b c|b c|b c|b c|b c x|b c v p]; cbn [step].
  - apply nok_bind; [now apply IH|]. mm ltac:(apply M).
  - cbv zeta. rewrite (look_fin s F). rewrite F. rewrite simple_end by exact F. apply nok_fail.
  - unfold expect at 1. rewrite (look_fin s F). rewrite F. apply nok_fail.
  - unfold tok_of. rewrite (look_fin s F). rewrite F. apply nok_bind; [now apply IH|]. mm idtac.
  - destruct (as_type x); [|intros [Z _]; discriminate]. cbv zeta. rewrite (look_fin s F). cbn [set_asf toks]. rewrite F. apply nok_bind; [now apply IH|]. mm idtac.
  - cbn [restOfCase]. cbv zeta. rewrite (look_fin s F). rewrite F. cbn [sbind]. rewrite (look_fin s F). rewrite F. apply nok_fail.
Qed.

(* ---- the answer, if nothing was reported ---- *)
Definition wp {A} (r : res A) (P : A -> st -> Prop) : Prop := match r with Done a s' => ok s' -> P a s' | _ => True end.
Lemma wp_mon {A} s (r : res A) P : mon s r -> (ok s -> wp r P) -> wp r P. Proof. destruct r; cbn; auto. Qed.
Lemma wp_imp {A} (r : res A) (P Q : A -> st -> Prop) : wp r P -> (forall a s', P a s' -> ok s' -> Q a s') -> wp r Q. Proof. destruct r; cbn; auto. Qed.
Lemma wp_nok {A} (r : res A) P : nok r -> wp r P. Proof. destruct r; cbn; auto. intros H K. now elim H. Qed.
Lemma wp_fail {A} (a : A) s P : wp (Done a (fail s)) P. Proof. intro H. now apply ok_fail in H. Qed.
Lemma wp_bind {A B} (r : res A) (k : A -> st -> res B) (P : A -> st -> Prop) Q :
  wp r P -> (forall a s1, mon s1 (k a s1)) -> (forall a s1, P a s1 -> ok s1 -> wp (k a s1) Q) -> wp (sbind r k) Q.
Proof. destruct r as [a s1| | |]; cbn; auto. intros H M K. apply (wp_mon s1); auto. Qed.
Lemma same_eq a b : same a b = true -> a = b. Proof. destruct a as [[]| | | | | | | | | | | | | | | | |], b as [[]| | | | | | | | | | | | | | | | |]; try discriminate; reflexivity. Qed.
Lemma drop_toks s t : hd_tok (toks s) = t -> t <> E TEnd -> toks s = t :: toks (drop s).
Proof. unfold drop. cbn. destruct (toks s); cbn; congruence. Qed.
Lemma wp_expect {A} q t s (y n : st -> res A) P :
  (forall s', mon s' (y s')) -> (forall s', mon s' (n s')) ->
  (forall s', ok s' -> toks s = t :: toks s' -> dfl s' = dfl s -> asf s' = asf s -> wp (y s') P) ->
  (q = true -> ok s -> same (hd_tok (toks s)) t = false -> wp (n s) P) -> wp (expect q t s y n) P.
Proof.
  intros MY MN Y N. unfold expect. destruct (same (hd_tok (toks (look s))) t) eqn:Sm.
  - apply (wp_mon (drop (look s))); [apply MY|]. intro H. change (ok (look s)) in H. apply ok_look in H. destruct H as [H HL]. rewrite HL in *.
    apply Y; auto. apply drop_toks; [now apply same_eq|]. intros ->. now destruct (hd_tok (toks s)) as [[]| | | | | | | | | | | | | | | | |].
  - destruct q.
    + apply (wp_mon (look s)); [apply MN|]. intro H. apply ok_look in H. destruct H as [H HL]. rewrite HL in *. now apply N.
    + apply (wp_mon (fail (look s))); [apply MN|]. intro H. now apply ok_fail in H.
Qed.
Lemma wp_look {A} s (k : st -> res A) P : (forall s', mon s' (k s')) -> (ok s -> look s = s -> wp (k s) P) -> wp (k (look s)) P.
Proof. intros M K. apply (wp_mon (look s)); [apply M|]. intro H. apply ok_look in H. destruct H as [H HL]. rewrite HL. auto. Qed.

(* what the expression parser reads *)
Definition Rd (t : task) (e : list tok) (n : node) : Prop := null n = false /\ exists rest, run (enough (e ++ rest)) t (e ++ rest) = Got n rest false.
Definition RX : list tok -> node -> Prop := Rd Assign.
Definition RY (assign : bool) : list tok -> node -> Prop := Rd (if assign then Assign else Level 0).
Lemma Rd_ne t e n : etask t -> Rd t e n -> e <> [].
Proof.
  intros T [H (rest & R)] ->. pose proof (nz_run (enough ([] ++ rest)) t ([] ++ rest)) as K. rewrite R in K. destruct K as (pre & E1 & K).
  assert (pre = []) by (destruct pre; auto; apply (f_equal (@length _)) in E1; rewrite !app_length in E1; cbn in E1; lia). subst pre.
  unfold some in K. rewrite H in K. destruct (K eq_refl) as [B|B]; [|congruence]. destruct T as [-> | ->]; discriminate.
Qed.
Lemma plain_map : forall pre ts rest, map as_tok ts = pre ++ rest -> Forall plain pre -> firstn (length pre) ts = map E pre.
Proof.
  induction pre as [|x pre IH]; intros ts rest H F; [reflexivity|]. destruct ts as [|t ts]; [discriminate|]. cbn in H. injection H as H1 H2.
  inversion F as [|? ? F1 F2]; subst. cbn [length firstn map]. rewrite (IH ts rest H2 F2). f_equal. destruct t as [[]| | | | | | | | | | | | | | | | |]; try reflexivity; destruct F1.
Qed.
Lemma wp_expr {A} t s (k : node -> st -> res A) P : etask t -> (forall n s', mon s' (k n s')) ->
  (forall n e s2, ok s2 -> toks s = map E e ++ toks s2 -> dfl s2 = dfl s -> (null n = true -> e = []) -> (null n = false -> Rd t e n) ->
     (root_as n = true \/ asf s = true -> asf s2 = true) -> wp (k n s2) P) -> wp (expr t s k) P.
Proof.
  intros T M K. unfold expr. pose proof (clr_run (enough (map as_tok (toks s))) t (map as_tok (toks s))) as C.
  destruct (run (enough _) t _) as [n rest e| | |] eqn:R; try exact I.
  set (s2 := {| toks := _ |}). apply (wp_mon s2); [apply M|]. intro OK. destruct OK as [O1 O2]. cbn [err lost s2] in O1, O2.
  apply orb_false_iff in O1, O2. destruct O1 as [O1 ->], O2 as [O2 O3]. cbn in C. destruct C as (pre & Hp & Fp & Ap).
  pose proof (plain_map _ _ _ Hp Fp) as Fn. assert (Len : length (toks s) - length rest = length pre).
  { apply (f_equal (@length _)) in Hp. rewrite map_length, app_length in Hp. lia. }
  rewrite Len, Fn in O3. apply (K n pre s2).
  - split; cbn [err lost s2]; [rewrite O1; reflexivity | rewrite Len, Fn, O2; exact O3].
  - cbn [toks s2]. rewrite Len, <- Fn. symmetry. apply firstn_skipn.
  - reflexivity.
  - intro N. rewrite N in O3. destruct pre; [reflexivity | discriminate].
  - intro N. split; [exact N|]. exists rest. rewrite <- Hp. exact R.
  - cbn [asf s2]. rewrite Len, Fn. intros [N|N]; [|now rewrite N]. destruct (Ap N) as [B|B]; [destruct T as [-> | ->]; discriminate|].
    apply orb_true_iff. right. apply existsb_exists. exists (E (TIs true)). split; [now apply in_map | reflexivity].
Qed.

Definition took (s : st) (u : list stok) (s' : st) : Prop := toks s = u ++ toks s' /\ dfl s' = dfl s.
Lemma took_0 s : took s [] s. Proof. now split. Qed.
Lemma took_app s u s1 v s2 : took s u s1 -> took s1 v s2 -> took s (u ++ v) s2.
Proof. intros [H1 D1] [H2 D2]. split; [now rewrite H1, H2, app_assoc | congruence]. Qed.
Lemma took_1 s t s1 : toks s = t :: toks s1 -> dfl s1 = dfl s -> took s [t] s1. Proof. now split. Qed.
Lemma took_drop s t : hd_tok (toks s) = t -> t <> E TEnd -> took s [t] (drop s). Proof. intros H N. split; [now apply drop_toks | reflexivity]. Qed.

(* declarations *)
Lemma wp_initial {A} s (k : node -> st -> res A) P : (forall n s', mon s' (k n s')) ->
  (forall ts n s2, ok s2 -> Init RY ts n -> took s ts s2 -> wp (k n s2) P) -> wp (initial s k) P.
Proof.
  intros M K. unfold initial, tok_of. cbv zeta.
  apply (wp_mon (look s)). { mm ltac:(apply M). } intro H. apply ok_look in H. destruct H as [H HL]. rewrite HL.
  assert (D : wp (k NNull s) P) by (apply (K []); [exact H | constructor | apply took_0]).
  destruct (hd_tok (toks s)) as [[]| | | | | | | | | | | | | | | | |] eqn:Hd; try exact D; try exact I. destruct o as [|o]; [|exact D].
  assert (T1 := took_drop s _ Hd ltac:(discriminate)).
  assert (X : wp (expr (Level 0) (look (drop s)) (fun n s2 => if null n then k NNull (fail s2) else k n s2)) P).
  { apply (wp_look (drop s) (fun x => expr (Level 0) x _)). { mm ltac:(apply M). } intros H1 HL1. apply wp_expr; [now right | mm ltac:(apply M)|].
    intros n e s2 O2 T2 D2 N1 N2 _. destruct (null n) eqn:N.
    - apply (wp_mon (fail s2)); [apply M|]. intro Z. now apply ok_fail in Z.
    - apply (K (E (TAssign 0) :: map E e)); [exact O2 | constructor; now apply N2 |]. apply (took_app s [_] (drop s) (map E e)); [exact T1 | now split]. }
  destruct (hd_tok (toks (look (drop s)))); try exact X. exact I.
Qed.
Lemma wp_restOfDecls ty : forall g acc s,
  wp (restOfDecls g ty acc s) (fun ds s' => exists u, took s u s' /\ ((u = [] /\ ds = acc) \/ (exists v dv, u = E TComma :: v /\ Decls RY ty v dv /\ ds = acc ++ dv))).
Proof.
  induction g as [|g IH]; intros acc s; [exact I|]. cbn [restOfDecls]. unfold tok_of. cbv zeta.
  apply (wp_mon (look s)). { mm ltac:(first [apply mon_initial | apply mon_restOfDecls]). }
  intro H. apply ok_look in H. destruct H as [H HL]. rewrite HL.
  match goal with |- wp _ ?Q => assert (D : wp (Done acc s) Q) by (intros _; exists []; split; [apply took_0 | now left]) end.
  destruct (hd_tok (toks s)) as [[]| | | | | | | | | | | | | | | | |] eqn:Hd; try exact D. clear D.
  assert (T1 := took_drop s _ Hd ltac:(discriminate)). set (s1 := drop s) in *. clearbody s1.
  destruct (hd_tok (toks (look s1))) as [[]| | | | | | | | | | | | | | | | |] eqn:Hd1; try (intros [Z _]; discriminate); [|destruct o; try exact I; intros [Z _]; discriminate].
  apply (wp_mon (look s1)). { mm ltac:(first [apply mon_initial | apply mon_restOfDecls]). }
  intro H1. apply ok_look in H1. destruct H1 as [H1 HL1]. rewrite HL1 in *. assert (T2 := took_drop s1 _ Hd1 ltac:(discriminate)).
  apply wp_initial. { intros. apply mon_restOfDecls. } intros ts n0 s2 O2 HI T3. eapply wp_imp; [apply IH|]. cbv beta. intros ds s' (u & T4 & HU) _.
  pose proof (took_app _ _ _ _ _ T1 (took_app _ _ _ _ _ T2 (took_app _ _ _ _ _ T3 T4))) as TT.
  destruct HU as [[-> ->]|(v & dv & -> & HD & ->)].
  - eexists. split; [exact TT|]. right. exists (E (TIdent n) :: ts), [TDecl ty n n0]. repeat split; [|now constructor]. cbn. now rewrite app_nil_r.
  - eexists. split; [exact TT|]. right. exists (E (TIdent n) :: ts ++ E TComma :: v), (TDecl ty n n0 :: dv). repeat split; [now constructor|]. now rewrite <- app_assoc.
Qed.
Lemma wp_parseDecl s : wp (parseDecl s) (fun ds s' => exists ty ts, took s (E (TType ty) :: ts) s' /\ Decls RY ty ts ds).
Proof.
  apply (wp_mon (look s)). { unfold parseDecl, tok_of. mm ltac:(first [apply mon_initial | apply mon_restOfDecls]). }
  unfold parseDecl, tok_of. cbv zeta. intro H. apply ok_look in H. destruct H as [H HL]. rewrite HL.
  destruct (hd_tok (toks s)) as [[]| | | | | | | | | | | | | | | | |] eqn:Hd; try exact I.
  assert (T1 := took_drop s _ Hd ltac:(discriminate)). set (s1 := drop s) in *. clearbody s1.
  destruct (hd_tok (toks (look s1))) as [[]| | | | | | | | | | | | | | | | |] eqn:Hd1; try exact I; try (intros [Z _]; discriminate); [|destruct o; try exact I; intros [Z _]; discriminate].
  apply (wp_mon (look s1)). { mm ltac:(first [apply mon_initial | apply mon_restOfDecls]). }
  intro H1. apply ok_look in H1. destruct H1 as [H1 HL1]. rewrite HL1 in *. assert (T2 := took_drop s1 _ Hd1 ltac:(discriminate)).
  apply wp_initial. { intros. apply mon_restOfDecls. } intros ts n1 s2 O2 HI T3. eapply wp_imp; [apply wp_restOfDecls|]. cbv beta. intros ds s' (u & T4 & HU) _.
  pose proof (took_app _ _ _ _ _ T1 (took_app _ _ _ _ _ T2 (took_app _ _ _ _ _ T3 T4))) as TT.
  destruct HU as [[-> ->]|(v & dv & -> & HD & ->)].
  - do 2 eexists. split; [exact TT|]. cbn. rewrite app_nil_r. now constructor.
  - do 2 eexists. split; [exact TT|]. cbn. now constructor.
Qed.
Lemma wp_simple b c s : wp (parseSimpleStatement b c s) (fun tr s' => exists u, took s u s' /\ St RX RY b c false u tr).
Proof.
  rewrite simple_eq. unfold semi. cbv zeta.
  apply (wp_bind _ _ (fun tr s1 => hd_tok (toks s1) = Semi -> exists u, took s u s1 /\ St RX RY b c false (u ++ [Semi]) tr)).
  - apply (wp_mon (look s)). { mm ltac:(apply mon_parseDecl). } intro H. apply ok_look in H. destruct H as [H HL]. rewrite HL.
    assert (EXPR : (forall ty, hd_tok (toks s) <> E (TType ty)) -> hd_tok (toks s) <> E TLocal -> hd_tok (toks s) <> Semi ->
      wp (expr Assign s (fun n s2 => Done (if null n then [] else [TExpr n]) s2)) (fun tr s1 => hd_tok (toks s1) = Semi -> exists u, took s u s1 /\ St RX RY b c false (u ++ [Semi]) tr)).
    { intros A1 A2 A3. apply wp_expr; [now left | mm idtac|]. intros n e s2 O2 T2 D2 N1 N2 _ _ K. destruct (null n) eqn:N.
      - rewrite (N1 eq_refl) in T2. cbn in T2. rewrite <- T2 in K. congruence.
      - exists (map E e). split; [now split|]. specialize (N2 eq_refl). pose proof (Rd_ne _ _ _ (or_introl eq_refl) N2) as NE. constructor; [exact N2|].
        destruct e as [|x e]; [congruence|]. rewrite T2 in A1, A2. cbn in *. destruct x; cbn; auto; first [congruence | eapply A1; reflexivity]. }
    assert (D := took_drop s).
    destruct (hd_tok (toks s)) as [[]| | | | | | | | | | | | | | | | |] eqn:Hd; try (apply EXPR; discriminate); try exact I; clear EXPR.
    + eapply wp_imp; [apply wp_parseDecl|]. cbv beta. intros ds s' (ty & ts & T & HD) _ _. exists (E (TType ty) :: ts). split; [exact T|]. now constructor.
    + intros _ K. exfalso. unfold drop in K. cbn in K. rewrite <- HL in Hd. unfold look in Hd. destruct (toks s) as [|[[]| | | | | | | | | | | | | | | | |] r] eqn:T; cbn in Hd; rewrite ?T in Hd; try discriminate.
      rewrite <- HL in H. unfold look in H. rewrite T in H. destruct H. discriminate.
    + intros _ _. exists []. split; [apply took_0 | constructor].
    + apply wp_expr; [now left | mm idtac|]. intros n e s2 O2 T2 D2 N1 N2 _ _ K.
      assert (T0 : took s (KReturn :: map E e) s2) by (apply (took_app _ [_] _ (map E e) _ (D _ eq_refl ltac:(discriminate))); now split).
      exists (KReturn :: map E e). split; [exact T0|]. destruct (null n) eqn:N.
      * rewrite (N1 eq_refl) in *. destruct n; try discriminate. constructor.
      * cbn. constructor. now apply N2.
    + destruct b; [|apply wp_fail]. intros _ _. exists [KBreak]. split; [now apply D | constructor].
    + destruct c; [|apply wp_fail]. intros _ _. exists [KContinue]. split; [now apply D | constructor].
    + apply wp_fail.
  - mm idtac.
  - intros tr s1 K O1. apply wp_expect; [mm idtac | mm idtac | |].
    + intros s2 O2 T2 D2 _ _. destruct (K ltac:(now rewrite T2)) as (u & TU & HS). exists (u ++ [Semi]). split; [|exact HS]. apply (took_app _ _ s1); [exact TU | now split].
    + intros _ _ _. apply wp_fail.
Qed.

(* the labels of a case *)
Definition comb (value : bool) (acc : option cond) (l : list node) (o : bool) : option cond :=
  if o then Some CTrue else match acc with Some c => Some (any value c l) | None => labels value l false end.
Lemma wp_restOfCase value : forall g acc s,
  wp (restOfCase g value acc s) (fun o s' =>
    (exists e n, acc = None /\ value = false /\ o = Some (CNode n) /\ RX e n /\ took s (KCase :: map E e ++ [E TColon]) s' /\ dfl s = DNone /\ asf s' = true) \/
    (exists ls l ot, Labels RX ls l ot /\ (forall n, In n l -> as_cond n = None) /\ toks s = ls ++ toks s' /\ o = comb value acc l ot /\
       dfl s' = (if ot then DLive else dfl s) /\ (dfl s <> DNone -> ls = []))).
Proof.
  induction g as [|g IH]; intros acc s; [exact I|]. cbn [restOfCase]. cbv zeta.
  apply (wp_mon (look s)). { destruct value; mm ltac:(apply mon_restOfCase). } intro H. apply ok_look in H. destruct H as [H HL]. rewrite HL.
  match goal with |- wp _ ?Q => assert (D : wp (Done acc s) Q) end.
  { intros _. right. exists [], [], false. repeat split; auto; [constructor | intros ? []|]. destruct acc; reflexivity. }
  destruct (hd_tok (toks s)) as [[]| | | | | | | | | | | | | | | | |] eqn:Hd; try exact D; clear D; assert (T1 := took_drop s _ Hd ltac:(discriminate)).
  - destruct (dfl s) eqn:DF; try (intros [Z _]; discriminate).
    apply wp_expr; [now left | destruct value; mm ltac:(apply mon_restOfCase)|]. intros n e s2 O2 T2 D2 N1 N2 RA.
    destruct (null n) eqn:N; [intros [Z _]; discriminate|]. specialize (N2 eq_refl).
    assert (T3 : took s (KCase :: map E e) s2) by (apply (took_app _ [_] _ (map E e) _ T1); now split).
    destruct (asf s2) eqn:AF.
    + apply wp_expect; [mm idtac | mm idtac | | discriminate]. intros s3 O3 T4 D3 A3.
      destruct acc; [intros [Z _]; discriminate|]. destruct value; [intros [Z _]; discriminate|]. intros _. left. exists e, n.
      refine (conj eq_refl (conj eq_refl (conj eq_refl (conj N2 (conj _ (conj eq_refl _)))))); [|congruence].
      destruct T3 as [T3 T3']. split; [rewrite T3, T4; cbn; now rewrite <- app_assoc | congruence].
    + assert (NA : as_cond n = None). { unfold root_as in RA. destruct (as_cond n); [now specialize (RA (or_introl eq_refl)) | reflexivity]. }
      apply wp_expect; [intro; apply mon_restOfCase | destruct value; mm idtac | | discriminate]. intros s3 O3 T4 D3 A3.
      eapply wp_imp; [apply IH|]. cbv beta. intros o s' [(e' & n' & K & _)|(ls & l & ot & HL' & NA' & TT & -> & DD & DN)] _; [destruct acc, value; discriminate|].
      right. exists (KCase :: map E e ++ E TColon :: ls), (n :: l), ot. repeat split.
      * now constructor.
      * intros m [<-|Hm]; auto.
      * destruct T3 as [T3 _]. rewrite T3, T4, TT. cbn. now rewrite <- app_assoc.
      * unfold comb. destruct ot; [reflexivity|]. destruct acc, value; reflexivity.
      * rewrite DD. destruct ot; [reflexivity|]. destruct T3. congruence.
      * congruence.
  - destruct (dfl s) eqn:DF; try (intros [Z _]; discriminate).
    apply wp_expect; [intro; apply mon_restOfCase | mm idtac | | discriminate]. intros s3 O3 T4 D3 A3. cbn [set_dfl toks dfl] in T4, D3.
    eapply wp_imp; [apply IH|]. cbv beta. intros o s' [(e' & n' & K & _)|(ls & l & ot & HL' & NA' & TT & -> & DD & DN)] _; [destruct acc; discriminate|].
    rewrite D3 in *. specialize (DN ltac:(discriminate)). subst ls. inversion HL'; subst.
    right. exists [KOtherwise; E TColon], [], true. destruct T1 as [T1 _]. repeat split.
    + constructor.
    + intros ? [].
    + rewrite T1, T4, TT. reflexivity.
    + destruct acc; reflexivity.
    + exact DD.
    + congruence.
Qed.

Definition nodang (op : bool) (s' : st) : Prop := op = true -> hd_tok (toks s') <> KElse.
Definition PS (b c : bool) (s : st) (tr : list tree) (s' : st) : Prop :=
  fin s' \/ exists u op, took s u s' /\ St RX RY b c op u tr /\ nodang op s'.
Definition PB (b c : bool) (ty : option N) (s : st) (tr : list tree) (s' : st) : Prop :=
  fin s' \/ exists u op t, tr = [t] /\ took s u s' /\ Body RX RY b c op ty u t /\ nodang op s'.
Definition PT (t : stask) (s : st) (tr : list tree) (s' : st) : Prop :=
  match t with
  | Statements b c => fin s' \/ hd_tok (toks s') = CloseC /\ exists u, took s u s' /\ Sts RX RY b c u tr
  | Statement b c => PS b c s tr s'
  | Block b c => fin s' \/ exists u ts, tr = [TBlock ts] /\ took s (OpenC :: u ++ [CloseC]) s' /\ Sts RX RY b c u ts
  | AsBlock b c => PB b c None s tr s'
  | AsCond b c x => exists ty, as_type x = Some ty /\ PB b c (Some ty) s tr s'
  | NextCase b c v p => hd_tok (toks s') = CloseC /\ exists u, toks s = u ++ toks s' /\
      (dfl s = DNone -> b = true -> Cases RX RY c v p u tr /\ dfl s' <> DDead) /\ (dfl s = DLive -> u = [] /\ tr = [] /\ dfl s' = DLive)
  end.

Ltac aa := repeat progress (cbn [app]; rewrite <- ?app_assoc); reflexivity.
Section Sound.
Variable rec : stask -> st -> res (list tree).
Hypothesis R : forall t s, mon s (rec t s).
Hypothesis EN : forall t s, fin s -> nok (rec t s).
Hypothesis IH : forall t s, wp (rec t s) (PT t s).

Lemma wp_body b c x s : wp (body rec b c x s) (fun tr s' => exists ty, (asf s = true -> as_type x = ty /\ ty <> None) /\ (asf s = false -> ty = None) /\ PB b c ty s tr s').
Proof.
  unfold body. destruct (asf s).
  - eapply wp_imp; [apply IH|]. cbn [PT]. intros tr s' (ty & T & H) _. exists (Some ty). repeat split; auto; discriminate.
  - eapply wp_imp; [apply IH|]. cbn [PT]. intros tr s' H _. exists None. repeat split; auto; discriminate.
Qed.
(* a body after a condition *)
Lemma wp_body_cond b c x s : (as_type x <> None -> asf s = true) -> wp (body rec b c x s) (PB b c (as_type x) s).
Proof.
  intro RA. eapply wp_imp; [apply wp_body|]. cbv beta. intros tr s' (ty & T1 & T2 & H) _. replace (as_type x) with ty; [exact H|].
  destruct (asf s) eqn:A; [now rewrite (proj1 (T1 eq_refl))|].
  rewrite (T2 eq_refl). destruct (as_type x); [now specialize (RA ltac:(discriminate)) | reflexivity].
Qed.
Lemma as_root n : as_type (CNode n) <> None -> root_as n = true.
Proof. change (as_cond n <> None -> root_as n = true). unfold root_as. destruct (as_cond n); [reflexivity | congruence]. Qed.

Lemma wp_if b c s : wp (parseControlIf rec b c s) (fun tr s' => fin s' \/ exists u op, took s u s' /\ St RX RY b c op (KIf :: u) tr /\ nodang op s').
Proof.
  unfold parseControlIf.
  apply wp_expect; [mm ltac:(first [apply mon_body; exact R | apply R]) | mm idtac | | discriminate]. intros s1 O1 T1 D1 _.
  apply wp_expr; [now left | mm ltac:(first [apply mon_body; exact R | apply R])|]. intros n e s2 O2 T2 D2 N1 N2 RA.
  destruct (null n) eqn:N; [apply wp_fail|]. specialize (N2 eq_refl).
  apply wp_expect; [mm ltac:(first [apply mon_body; exact R | apply R]) | mm idtac | | discriminate]. intros s3 O3 T3 D3 A3.
  assert (TK : took s (E TOpen :: map E e ++ [E TClose]) s3) by (split; [rewrite T1, T2, T3; cbn; aa | congruence]).
  apply (wp_bind _ _ (PB b c (as_cond n) s3)); [apply (wp_body_cond b c (CNode n)); rewrite A3; intro Z; apply RA; left; now apply as_root | mm ltac:(apply R)|].
  intros tr s4 HB O4. destruct tr as [|t tr]; [apply wp_fail|].
  apply wp_expect; [mm ltac:(apply R) | mm idtac | |].
  - intros s5 O5 T5 D5 _. destruct HB as [F|(u & op & t' & E1 & TU & HB & ND)]; [unfold fin in F; rewrite T5 in F; discriminate|].
    injection E1 as -> ->. assert (op = false) by (destruct op; [|reflexivity]; elim (ND eq_refl); now rewrite T5). subst op.
    apply (wp_bind _ _ (PB b c None s5)); [apply IH | mm idtac|]. intros f s6 [F|(u' & op' & t'' & -> & TU' & HB' & ND')] O6 _; [now left|].
    right. exists (E TOpen :: map E e ++ E TClose :: u ++ KElse :: u'), op'. repeat split; auto.
    + destruct TK as [-> _], TU as [TU _], TU' as [TU' _]. rewrite TU, T5, TU'. cbn. aa.
    + destruct TK, TU, TU'. congruence.
    + now apply (S_else _ _ b c op' e n).
  - intros _ _ SM. intros _. destruct HB as [F|(u & op & t' & E1 & TU & HB & ND)]; [now left|]. injection E1 as -> ->.
    right. exists (E TOpen :: map E e ++ E TClose :: u), true. repeat split; auto.
    + destruct TK as [TK _], TU as [TU _]. rewrite TK, TU. cbn. aa.
    + destruct TK, TU. congruence.
    + now apply (S_if _ _ b c op e n).
    + intros _ X. rewrite X in SM. discriminate.
Qed.
Lemma wp_while pre x stp s : (as_type x <> None -> asf s = true) ->
  wp (makeControlWhileNode rec pre x stp s) (fun tr s' => fin s' \/ exists u op t, tr = [TBlock (pre ++ [TWhile x t stp])] /\ took s u s' /\ Body RX RY true true op (as_type x) u t /\ nodang op s').
Proof.
  intro H. unfold makeControlWhileNode. apply (wp_bind _ _ (PB true true (as_type x) s)); [now apply wp_body_cond | mm idtac|].
  intros tr s1 HB O1. destruct tr as [|t tr]; [apply wp_fail|]. intros _. destruct HB as [F|(u & op & t' & E1 & TU & HB & ND)]; [now left|]. injection E1 as -> ->.
  right. exists u, op, t'. auto.
Qed.
Lemma wp_forAssign pre x s : (as_type x <> None -> asf s = true) ->
  wp (forAssign rec pre x s) (fun tr s' => fin s' \/ exists u stp v op t, tr = [TBlock (pre ++ [TWhile x t stp])] /\
    took s (u ++ E TClose :: v) s' /\ ForStep RY u stp /\ Body RX RY true true op (as_type x) v t /\ nodang op s').
Proof.
  intro HA. unfold forAssign. cbv zeta. apply (wp_mon (look s)). { mm ltac:(apply mon_while; exact R). } intro H. apply ok_look in H. destruct H as [H HL]. rewrite HL.
  match goal with |- wp _ ?Q => assert (X : wp (expr Assign s (fun n s2 =>
           if null n then Done [] (fail s2) else expect false (E TClose) s2 (makeControlWhileNode rec pre x [n]) (Done []))) Q) end.
  { apply wp_expr; [now left | mm ltac:(apply mon_while; exact R)|]. intros n e s2 O2 T2 D2 N1 N2 RA.
    destruct (null n) eqn:N; [apply wp_fail|]. specialize (N2 eq_refl).
    apply wp_expect; [intro; apply mon_while; exact R | mm idtac | | discriminate]. intros s3 O3 T3 D3 A3.
    eapply wp_imp; [apply wp_while; intro Z; rewrite A3; auto|]. cbv beta. intros tr s' [F|(u & op & t & -> & TU & HB & ND)] _; [now left|].
    right. exists (map E e), [n], u, op, t. repeat split; auto.
    - destruct TU as [TU _]. rewrite T2, T3, TU. aa.
    - destruct TU. congruence.
    - constructor. exact N2. }
  destruct (hd_tok (toks s)) as [[]| | | | | | | | | | | | | | | | |] eqn:Hd; try exact X. clear X. assert (T1 := took_drop s _ Hd ltac:(discriminate)).
  eapply wp_imp; [apply wp_while; exact HA|]. cbv beta. intros tr s' [F|(u & op & t & -> & TU & HB & ND)] _; [now left|].
  right. exists [], [], u, op, t. repeat split; auto; [| |constructor].
  - destruct TU as [TU _], T1 as [T1 _]. rewrite T1, TU. reflexivity.
  - destruct TU, T1. congruence.
Qed.
Lemma wp_forCond pre s :
  wp (forCond rec pre s) (fun tr s' => fin s' \/ exists w x u stp v op t, tr = [TBlock (pre ++ [TWhile x t stp])] /\
    took s (w ++ Semi :: u ++ E TClose :: v) s' /\ ForCond RX w x /\ ForStep RY u stp /\ Body RX RY true true op (as_type x) v t /\ nodang op s').
Proof.
  unfold forCond. cbv zeta. apply (wp_mon (look s)). { mm ltac:(apply mon_forAssign; exact R). } intro H. apply ok_look in H. destruct H as [H HL]. rewrite HL.
  match goal with |- wp _ ?Q => assert (X : wp (expr Assign s (fun n s2 =>
           if null n then Done [] (fail s2) else expect false Semi s2 (forAssign rec pre (CNode n)) (Done []))) Q) end.
  { apply wp_expr; [now left | mm ltac:(apply mon_forAssign; exact R)|]. intros n e s2 O2 T2 D2 N1 N2 RA.
    destruct (null n) eqn:N; [apply wp_fail|]. specialize (N2 eq_refl).
    apply wp_expect; [intro; apply mon_forAssign; exact R | mm idtac | | discriminate]. intros s3 O3 T3 D3 A3.
    eapply wp_imp; [apply wp_forAssign; intro Z; rewrite A3; apply RA; left; now apply as_root|]. cbv beta. intros tr s' [F|(u & stp & v & op & t & -> & TU & HF & HB & ND)] _; [now left|].
    right. exists (map E e), (CNode n), u, stp, v, op, t. repeat split; auto.
    - destruct TU as [TU _]. rewrite T2, T3, TU. aa.
    - destruct TU. congruence.
    - constructor. exact N2. }
  destruct (hd_tok (toks s)) as [[]| | | | | | | | | | | | | | | | |] eqn:Hd; try exact X. clear X. assert (T1 := took_drop s _ Hd ltac:(discriminate)).
  eapply wp_imp; [apply wp_forAssign; cbn; congruence|]. cbv beta. intros tr s' [F|(u & stp & v & op & t & -> & TU & HF & HB & ND)] _; [now left|].
  right. exists [], CTrue, u, stp, v, op, t. repeat split; auto; [| |constructor].
  - destruct TU as [TU _], T1 as [T1 _]. rewrite T1, TU. reflexivity.
  - destruct TU, T1. congruence.
Qed.
Lemma wp_forSemi pre s : hd_tok (toks s) <> E TErr ->
  wp (forSemi rec pre s) (fun tr s' => fin s' \/ exists w x u stp v op t, tr = [TBlock (pre ++ [TWhile x t stp])] /\
    took s (Semi :: w ++ Semi :: u ++ E TClose :: v) s' /\ ForCond RX w x /\ ForStep RY u stp /\ Body RX RY true true op (as_type x) v t /\ nodang op s').
Proof.
  intros _. unfold forSemi. destruct (hd_tok (toks s)) as [[]| | | | | | | | | | | | | | | | |] eqn:Hd; try apply wp_fail.
  assert (T1 := took_drop s _ Hd ltac:(discriminate)). eapply wp_imp; [apply wp_forCond|]. cbv beta.
  intros tr s' [F|(w & x & u & stp & v & op & t & -> & TU & HC & HF & HB & ND)] _; [now left|]. right. exists w, x, u, stp, v, op, t. repeat split; auto.
  - destruct TU as [TU _], T1 as [T1 _]. rewrite T1, TU. reflexivity.
  - destruct TU, T1. congruence.
Qed.
Lemma wp_for b c s : wp (parseControlFor rec s) (fun tr s' => fin s' \/ exists u op, took s u s' /\ St RX RY b c op (KFor :: u) tr /\ nodang op s').
Proof.
  unfold parseControlFor. apply wp_expect; [mm ltac:(first [apply mon_parseDecl | apply mon_forSemi; exact R]) | mm idtac | | discriminate]. intros s1 O1 T1 D1 _. cbv zeta.
  apply (wp_mon (look s1)). { mm ltac:(first [apply mon_parseDecl | apply mon_forSemi; exact R]). } intro H. apply ok_look in H. destruct H as [H HL]. rewrite HL.
  assert (FS : forall pre i s2, ForInit RY i pre -> took s1 i s2 ->
     wp (forSemi rec pre (look s2)) (fun tr s' => fin s' \/ exists u op, took s u s' /\ St RX RY b c op (KFor :: u) tr /\ nodang op s')).
  { intros pre i s2 HI TI. apply (wp_mon (look s2)); [apply mon_forSemi; exact R|]. intro H2. apply ok_look in H2. destruct H2 as [H2 HL2]. rewrite HL2.
    eapply wp_imp; [apply wp_forSemi|].
    - intro Z. rewrite <- HL2 in Z, H2. unfold look in *. destruct (toks s2) as [|[[]| | | | | | | | | | | | | | | | |] r] eqn:T; try (rewrite T in Z; discriminate). destruct H2. discriminate.
    - cbv beta. intros tr s' [F|(w & x & u & stp & v & op & t & -> & TU & HC & HF & HB & ND)] _; [now left|]. right.
      exists (E TOpen :: i ++ Semi :: w ++ Semi :: u ++ E TClose :: v), op. repeat split; auto.
      + destruct TU as [TU _], TI as [TI _]. rewrite T1, TI, TU. cbn. aa.
      + destruct TU, TI. congruence.
      + apply (S_for _ _ b c op i pre w x u stp v t); auto. }
  assert (N0 : wp (forSemi rec [] s1) (fun tr s' => fin s' \/ exists u op, took s u s' /\ St RX RY b c op (KFor :: u) tr /\ nodang op s'))
    by (rewrite <- HL; apply (FS [] []); [constructor | apply took_0]).
  destruct (hd_tok (toks s1)) as [[]| | | | | | | | | | | | | | | | |] eqn:Hd; try exact N0; clear N0.
  - apply wp_expr; [now left | mm ltac:(apply mon_forSemi; exact R)|]. intros m e s2 O2 T2 D2 N1 N2 RA. destruct (null m) eqn:N.
    + apply (wp_mon (fail s2)); [|intro Z; now apply ok_fail in Z]. mm ltac:(apply mon_forSemi; exact R).
    + specialize (N2 eq_refl). pose proof (Rd_ne _ _ _ (or_introl eq_refl) N2) as NE. apply (FS [TExpr m] (map E e)); [|now split]. constructor; [exact N2|].
      destruct e as [|y e]; [congruence|]. rewrite T2 in Hd. cbn in Hd. injection Hd as ->. exact I.
  - eapply wp_bind; [apply wp_parseDecl | mm ltac:(apply mon_forSemi; exact R) |]. cbv beta. intros ds s2 (ty & ts & TT & HD) O2.
    apply (FS ds (E (TType ty) :: ts)); [now constructor | exact TT].
Qed.
Lemma wp_which b c s : wp (parseControlSwitch rec c s) (fun tr s' => exists u, took s u s' /\ St RX RY b c false (KWhich :: u) tr).
Proof.
  unfold parseControlSwitch. apply wp_expect; [mm ltac:(apply R) | mm idtac | | discriminate]. intros s1 O1 T1 D1 _. cbv zeta.
  apply (wp_mon (look s1)). { unfold tok_of. mm ltac:(apply R). } intro H. apply ok_look in H. destruct H as [H HL]. unfold tok_of. rewrite HL.
  apply wp_expr; [now left | mm ltac:(apply R)|]. intros n e s2 O2 T2 D2 N1 N2 RA.
  match goal with |- context [null n && ?v] => set (value := v) end.
  destruct (null n && value) eqn:NV; [apply wp_fail|].
  apply wp_expect; [mm ltac:(apply R) | mm idtac | | discriminate]. intros s3 O3 T3 D3 _.
  apply wp_expect; [mm ltac:(apply R) | mm idtac | | discriminate]. intros s4 O4 T4 D4 _.
  eapply wp_bind; [apply IH | mm idtac |]. cbn [PT set_dfl toks dfl]. intros cases s5 (HC & u & TU & HD & _) O5.
  destruct (HD eq_refl eq_refl) as [HK ND].
  apply wp_expect; [mm idtac | mm idtac | | discriminate]. cbn [set_dfl toks dfl]. intros s6 O6 T6 D6 _.
  assert (VN : value = negb (null n)).
  { destruct (null n) eqn:N; [destruct value; [discriminate | reflexivity]|]. specialize (N2 eq_refl). pose proof (Rd_ne _ _ _ (or_introl eq_refl) N2) as NE.
    unfold value. destruct e as [|y e]; [congruence|]. rewrite T2. cbn [hd_tok map app]. destruct y; try reflexivity.
    exfalso. destruct N2 as [N2 (rest & RR)]. change (run (enough ((TClose :: e) ++ rest)) Assign ((TClose :: e) ++ rest)) with (parseAssignExpr ((TClose :: e) ++ rest)) in RR.
    rewrite parse_V, V_nothing in RR by now right. injection RR as RR. rewrite <- RR in N. discriminate. }
  rewrite VN in HK. assert (HV : Value RY (map E e) n).
  { destruct (null n) eqn:N; [rewrite (N1 eq_refl); destruct n; try discriminate; constructor | constructor; now apply N2]. }
  assert (TK : took s (E TOpen :: map E e ++ E TClose :: OpenC :: u ++ [CloseC]) s6).
  { split; [|congruence]. rewrite T1, T2, T3, T4, TU, T6. cbn. aa. }
  destruct (dfl s5); try exact I; intros _; eexists; (split; [exact TK|]); now apply S_which.
Qed.
Lemma wp_control b c s : wp (parseControlStatement rec b c s) (PS b c s).
Proof.
  unfold parseControlStatement. cbv zeta.
  apply (wp_mon (look s)). { unfold parseControlWhile. mm ltac:(first [apply mon_if; exact R | apply mon_while; exact R | apply mon_for; exact R | apply mon_which; exact R]). }
  intro H. apply ok_look in H. destruct H as [H HL]. rewrite HL.
  destruct (hd_tok (toks s)) as [[]| | | | | | | | | | | | | | | | |] eqn:Hd; try apply wp_fail; assert (T1 := took_drop s _ Hd ltac:(discriminate)).
  - eapply wp_imp; [apply wp_if|]. cbv beta. intros tr s' [F|(u & op & TU & HS & ND)] _; [now left|]. right. exists (KIf :: u), op. split; [|now split]. exact (took_app _ _ _ _ _ T1 TU).
  - unfold parseControlWhile. apply wp_expect; [mm ltac:(apply mon_while; exact R) | mm idtac | | discriminate]. intros s1 O1 T2 D1 _.
    apply wp_expr; [now left | mm ltac:(apply mon_while; exact R)|]. intros n e s2 O2 T3 D2 N1 N2 RA.
    destruct (null n) eqn:N; [apply wp_fail|]. specialize (N2 eq_refl).
    apply wp_expect; [intro; apply mon_while; exact R | mm idtac | | discriminate]. intros s3 O3 T4 D3 A3.
    eapply wp_imp; [apply (wp_while [] (CNode n)); intro Z; rewrite A3; apply RA; left; now apply as_root|]. cbv beta.
    intros tr s' [F|(u & op & t & -> & TU & HB & ND)] _; [now left|]. right. exists (KWhile :: E TOpen :: map E e ++ E TClose :: u), op. repeat split; auto.
    + destruct T1 as [T1 _], TU as [TU _]. rewrite T1, T2, T3, T4, TU. cbn. aa.
    + destruct T1, TU. congruence.
    + now apply (S_while _ _ b c op e n).
  - eapply wp_imp; [apply (wp_for b c)|]. cbv beta. intros tr s' [F|(u & op & TU & HS & ND)] _; [now left|]. right. exists (KFor :: u), op. split; [|now split]. exact (took_app _ _ _ _ _ T1 TU).
  - eapply wp_imp; [apply (wp_which b c)|]. cbv beta. intros tr s' (u & TU & HS) _. right. exists (KWhich :: u), false. repeat split; try discriminate; [| |exact HS]; exact (proj1 (took_app _ _ _ _ _ T1 TU)) || exact (proj2 (took_app _ _ _ _ _ T1 TU)).
Qed.

Lemma until_fin t s : fin s -> until t (toks s) = toks s.
Proof. unfold fin. destruct (toks s) as [|x l]; cbn; [reflexivity|]. intros ->. reflexivity. Qed.
Lemma took_hd s x u s' : took s (x :: u) s' -> hd_tok (toks s) = x. Proof. intros [-> _]. reflexivity. Qed.
Lemma not_curly_took s u s' : took s u s' -> hd_tok (toks s) <> OpenC -> ~ curly u.
Proof. intros T N C. destruct u as [|[] u]; try destruct C. apply took_hd in T. congruence. Qed.
Lemma wp_statements b c s : wp (step rec (Statements b c) s) (PT (Statements b c) s).
Proof.
  cbn [step PT]. cbv zeta. apply (wp_bind _ _ (PS b c s)); [apply IH | mm ltac:(apply R)|]. intros ss s1 HS O1.
  apply (wp_mon (look s1)). { mm ltac:(apply R). } intro H. apply ok_look in H. destruct H as [_ HL]. rewrite HL.
  assert (MORE : hd_tok (toks s1) <> CloseC -> wp (sbind (rec (Statements b c) s1) (fun more s3 => Done (ss ++ more) s3))
    (fun tr s' => fin s' \/ hd_tok (toks s') = CloseC /\ exists u, took s u s' /\ Sts RX RY b c u tr)).
  { intros NC. destruct HS as [F|(u & op & TU & HS & ND)].
    - apply wp_nok, nok_bind; [now apply EN | mm idtac].
    - eapply wp_bind; [apply IH | mm idtac|]. cbn [PT]. intros more s3 [F|(HC & v & TV & HV)] O3 _; [now left|]. right. split; [exact HC|].
      exists (u ++ v). split; [exact (took_app _ _ _ _ _ TU TV)|]. now apply (Ss_some _ _ b c op). }
  destruct (hd_tok (toks s1)) as [[]| | | | | | | | | | | | | | | | |] eqn:Hd; try (apply MORE; discriminate).
  - match goal with |- context [if ?x then _ else _] => destruct x end; [|apply MORE; discriminate]. intros _. left. exact Hd.
  - intros _. right. split; [exact Hd|]. destruct HS as [F|(u & op & TU & HS & ND)]; [unfold fin in F; congruence|].
    exists (u ++ []). split; [now rewrite app_nil_r|]. rewrite <- (app_nil_r ss). apply (Ss_some _ _ b c op); [exact HS | constructor].
Qed.
Lemma wp_statement b c s : wp (step rec (Statement b c) s) (PT (Statement b c) s).
Proof.
  cbn [step PT]. cbv zeta. apply (wp_mon (look s)). { mm ltac:(first [apply mon_control; exact R | apply mon_simple | apply R]). }
  intro H. apply ok_look in H. destruct H as [H HL]. rewrite HL.
  assert (SI : wp (parseSimpleStatement b c s) (PS b c s)).
  { eapply wp_imp; [apply wp_simple|]. cbv beta. intros tr s' (u & TU & HS) _. right. exists u, false. split; [exact TU|]. split; [exact HS | discriminate]. }
  destruct (hd_tok (toks s)) as [[]| | | | | | | | | | | | | | | | |] eqn:Hd; try exact SI; try apply wp_control.
  eapply wp_imp; [apply IH|]. cbn [PT]. intros tr s' [F|(u & ts & -> & TU & HS)] _; [now left|]. right. exists (OpenC :: u ++ [CloseC]), false.
  split; [exact TU|]. split; [now constructor | discriminate].
Qed.
Lemma wp_block b c s : wp (step rec (Block b c) s) (PT (Block b c) s).
Proof.
  cbn [step PT]. apply wp_expect; [mm ltac:(apply R) | mm idtac | | discriminate]. intros s1 O1 T1 D1 _.
  apply wp_expect; [mm idtac | mm ltac:(apply R) | |].
  - intros s2 O2 T2 D2 _ _. right. exists [], []. split; [reflexivity|]. split; [|constructor]. split; [now rewrite T1, T2 | congruence].
  - intros _ _ _. eapply wp_bind; [apply IH | mm idtac|]. cbn [PT]. intros ss s3 HS O3.
    apply wp_expect; [mm idtac | mm idtac | |].
    + intros s4 O4 T4 D4 _ _. destruct HS as [F|(HC & u & TU & HS)]; [unfold fin in F; rewrite T4 in F; discriminate|].
      right. exists u, ss. split; [reflexivity|]. split; [|exact HS]. destruct TU as [TU TD]. split; [rewrite T1, TU, T4; aa | congruence].
    + intros _ _ SM. destruct HS as [F|(HC & _)]; [|rewrite HC in SM; discriminate]. intros _. left. unfold fin. cbn [set_toks toks]. rewrite until_fin; exact F.
Qed.
Lemma wp_asblock b c s : wp (step rec (AsBlock b c) s) (PT (AsBlock b c) s).
Proof.
  cbn [step PT]. unfold tok_of. apply (wp_mon (look s)). { mm ltac:(apply R). }
  intro H. apply ok_look in H. destruct H as [H HL]. rewrite HL.
  assert (ST : hd_tok (toks s) <> OpenC -> wp (sbind (rec (Statement b c) s) (fun ss s1 => Done [TBody ss] s1)) (PB b c None s)).
  { intro NC. apply (wp_bind _ _ (PS b c s)); [apply IH | mm idtac|]. intros ss s1 [F|(u & op & TU & HS & ND)] O1 _; [now left|].
    right. exists u, op, (TBody ss). split; [reflexivity|]. split; [exact TU|]. split; [|exact ND]. constructor; [exact HS | exact (not_curly_took _ _ _ TU NC)]. }
  destruct (hd_tok (toks s)) as [[]| | | | | | | | | | | | | | | | |] eqn:Hd; try (apply ST; discriminate).
  eapply wp_imp; [apply IH|]. cbn [PT]. intros tr s' [F|(u & ts & -> & TU & HS)] _; [now left|]. right. exists (OpenC :: u ++ [CloseC]), false, (TBlock ts).
  split; [reflexivity|]. split; [exact TU|]. split; [now constructor | discriminate].
Qed.
Lemma wp_ascond b c x s : wp (step rec (AsCond b c x) s) (PT (AsCond b c x) s).
Proof.
  cbn [step PT]. destruct (as_type x) as [ty|] eqn:AT; [|intros [Z _]; discriminate]. cbv zeta.
  apply (wp_mon (look s)). { mm ltac:(apply R). } intro H. apply ok_look in H. destruct H as [H HL]. rewrite HL.
  enough (X : wp (match hd_tok (toks (set_asf s false)) with
      | OpenC => expect true CloseC (drop (set_asf s false)) (fun s2 => Done [TBlock [TAsDecl ty]] s2)
                   (fun s2 => sbind (rec (Statements b c) s2) (fun ss s3 =>
                      expect false CloseC s3 (Done [TBlock (TAsDecl ty :: ss)]) (Done [TBlock (TAsDecl ty :: ss)])))
      | _ => sbind (rec (Statement b c) (set_asf s false)) (fun ss s2 => Done [TBlock (TAsDecl ty :: ss)] s2)
      end) (PB b c (Some ty) s)).
  { eapply wp_imp; [exact X|]. intros tr s' HB _. exists ty. split; [exact AT | exact HB]. }
  set (s0 := set_asf s false). assert (TE : forall u s', took s0 u s' <-> took s u s') by (unfold took, s0; tauto).
  assert (ST : hd_tok (toks s0) <> OpenC -> wp (sbind (rec (Statement b c) s0) (fun ss s1 => Done [TBlock (TAsDecl ty :: ss)] s1)) (PB b c (Some ty) s)).
  { intro NC. apply (wp_bind _ _ (PS b c s0)); [apply IH | mm idtac|]. intros ss s1 [F|(u & op & TU & HS & ND)] O1 _; [now left|].
    right. exists u, op, (TBlock (TAsDecl ty :: ss)). split; [reflexivity|]. split; [now apply TE|]. split; [|exact ND]. constructor; [exact HS | exact (not_curly_took _ _ _ TU NC)]. }
  destruct (hd_tok (toks s0)) as [[]| | | | | | | | | | | | | | | | |] eqn:Hd; try (apply ST; discriminate). clear ST.
  assert (T1 := proj1 (TE _ _) (took_drop s0 _ Hd ltac:(discriminate))). set (s1 := drop s0) in *. clearbody s1. destruct T1 as [T1 D1].
  apply wp_expect; [mm idtac | mm ltac:(apply R) | |].
  - intros s2 O2 T2 D2 _ _. right. exists ([OpenC] ++ [] ++ [CloseC]), false, (TBlock [TAsDecl ty]). split; [reflexivity|].
    split; [split; [now rewrite T1, T2 | congruence]|]. split; [apply (B_as_block _ _ b c ty [] []); constructor | discriminate].
  - intros _ _ _. eapply wp_bind; [apply IH | mm idtac|]. cbn [PT]. intros ss s3 HS O3.
    apply wp_expect; [mm idtac | mm idtac | | discriminate].
    intros s4 O4 T4 D4 _ _. destruct HS as [F|(HC & u & TU & HS)]; [unfold fin in F; rewrite T4 in F; discriminate|].
    right. exists (OpenC :: u ++ [CloseC]), false, (TBlock (TAsDecl ty :: ss)). split; [reflexivity|]. destruct TU as [TU TD].
    split; [split; [rewrite T1, TU, T4; aa | congruence]|]. split; [now constructor | discriminate].
Qed.
Lemma body_curly b c op ty u t s s' : Body RX RY b c op ty u t -> took s u s' -> hd_tok (toks s) = OpenC -> curly u /\ op = false.
Proof.
  intros HB TU Hd. assert (NE : curly u).
  { assert (SN : forall b c op u tr, St RX RY b c op u tr -> u <> []).
    { intros b0 c0 op0 u0 tr HS. destruct HS; try discriminate. destruct e; [destruct H0 | discriminate]. }
    destruct HB; try exact I; (destruct ts as [|x ts]; [now elim (SN _ _ _ _ _ H)|]); apply took_hd in TU; rewrite Hd in TU; subst x; exact I. }
  split; [exact NE|]. destruct HB; try reflexivity; contradiction.
Qed.
Lemma any_not value : forall l x, x <> CTrue -> any value x l <> CTrue /\ (l <> [] -> as_type (any value x l) = None).
Proof.
  induction l as [|n l IHl]; intros x H; cbn [any]; [split; congruence|]. destruct (IHl (COr x (if value then CCase n else CNode n)) ltac:(discriminate)) as [A B].
  split; [exact A|]. intros _. destruct l; [reflexivity | now apply B].
Qed.
Lemma comb_true v l x : comb v None l false = Some x -> x <> CTrue.
Proof. cbn. destruct l as [|n l]; [discriminate|]. cbn. intro H. injection H as <-. apply any_not. destruct v; discriminate. Qed.
Lemma comb_as v l o x : (forall n, In n l -> as_cond n = None) -> comb v None l o = Some x -> as_type x = None.
Proof.
  intros NA. destruct o; [intro H; now injection H as <-|]. cbn. destruct l as [|n l]; [discriminate|]. cbn. intro H. injection H as <-.
  destruct l as [|m l].
  - cbn [any]. destruct v; [reflexivity|]. exact (NA n (or_introl eq_refl)).
  - apply any_not; [destruct v; discriminate | discriminate].
Qed.
Lemma wp_nextcase b c v p s : wp (step rec (NextCase b c v p) s) (PT (NextCase b c v p) s).
Proof.
  cbn [step PT]. eapply wp_bind; [apply wp_restOfCase | mm ltac:(first [apply mon_body; exact R | apply R]) |]. cbv beta. intros o s1 HR O1.
  apply (wp_mon (look s1)). { mm ltac:(first [apply mon_body; exact R | apply R]). } cbv zeta. intro H. apply ok_look in H. destruct H as [_ HL]. rewrite HL.
  destruct o as [x|].
  - destruct (hd_tok (toks s1)) as [[]| | | | | | | | | | | | | | | | |] eqn:Hd; try (intros [Z _]; discriminate).
    eapply wp_bind; [apply wp_body | mm ltac:(apply R) |]. cbv beta. intros tr s2 (ty & A1 & A2 & HB) O2.
    destruct tr as [|t tr]; [intros [Z _]; discriminate|]. destruct HB as [F|(u & op & t' & E1 & TU & HB & ND)].
    { apply wp_nok. destruct x, p; (apply nok_bind; [now apply EN | mm idtac]). }
    injection E1 as -> ->. destruct (body_curly _ _ _ _ _ _ _ _ HB TU Hd) as [CU ->].
    assert (DT : dfl s2 = dfl s1) by apply TU. destruct TU as [TU _].
    destruct HR as [(e & n & _ & -> & X & HX & TK & DN & AF)|(ls & l & ot & HL' & NA & TK & X & DD & DN)].
    + injection X as ->. assert (HT : as_cond n = ty) by (rewrite <- (proj1 (A1 AF)); reflexivity).
      assert (TY : exists k, ty = Some k). { destruct ty as [k|]; [now exists k|]. now elim (proj2 (A1 AF)). }
      destruct TY as [k ->].
      eapply (wp_bind _ _ (PT (NextCase b c false true) s2)); [apply IH | mm idtac|]. cbn [PT]. intros f s3 (HC & w & TW & HN & _) O3 _.
      split; [exact HC|]. exists (KCase :: map E e ++ E TColon :: u ++ w). destruct TK as [TK DK]. split; [rewrite TK, TU, TW; aa|]. split; [|congruence].
      intros _ ->. destruct (HN ltac:(congruence) eq_refl) as [HCs ND3]. split; [|exact ND3]. now apply (C_as _ _ c false p e n k).
    + symmetry in X. assert (AN : as_type x = None) by (eapply comb_as; eassumption).
      assert (ty = None). { destruct (asf s1); [|now apply A2]. destruct (A1 eq_refl) as [A3 A4]. congruence. } subst ty.
      destruct ot.
      * cbn in X. injection X as <-. destruct p.
        -- eapply (wp_bind _ _ (PT (NextCase b c v false) s2)); [apply IH | mm idtac|]. cbn [PT]. intros f s3 (HC & w & TW & _ & HN) O3 _.
           split; [exact HC|]. destruct (HN ltac:(congruence)) as (-> & -> & ND3). exists (ls ++ u). split; [rewrite TK, TU, TW; aa|]. split.
           ++ intros D0 ->. split; [now apply (C_else _ _ c v ls l) | congruence].
           ++ intro D0. rewrite (DN ltac:(congruence)) in HL'. inversion HL'.
        -- eapply (wp_bind _ _ (PT (NextCase b c v true) s2)); [apply IH | mm idtac|]. cbn [PT]. intros f s3 (HC & w & TW & _ & HN) O3 _.
           split; [exact HC|]. destruct (HN ltac:(congruence)) as (-> & -> & ND3). exists (ls ++ u). split; [rewrite TK, TU, TW; aa|]. split.
           ++ intros D0 ->. split; [now apply (C_other _ _ c v ls l) | congruence].
           ++ intro D0. rewrite (DN ltac:(congruence)) in HL'. inversion HL'.
      * assert (NT : x <> CTrue) by (eapply comb_true; exact X).
        assert (G : wp (sbind (rec (NextCase b c v true) s2) (fun f s4 => Done [TIf x t' f] s4)) (PT (NextCase b c v p) s)).
        { eapply (wp_bind _ _ (PT (NextCase b c v true) s2)); [apply IH | mm idtac|]. cbn [PT]. intros f s3 (HC & w & TW & HN & _) O3 _.
          split; [exact HC|]. exists (ls ++ u ++ w). split; [rewrite TK, TU, TW; aa|]. split.
          - intros D0 ->. destruct (HN ltac:(congruence) eq_refl) as [HCs ND3]. split; [now apply (C_case _ _ c v p ls l) | exact ND3].
          - intro D0. rewrite (DN ltac:(congruence)) in HL'. inversion HL'; subst. discriminate. }
        destruct x, p; try exact G; now elim NT.
  - destruct (hd_tok (toks s1)) as [[]| | | | | | | | | | | | | | | | |] eqn:Hd; try apply wp_fail. intros _. split; [exact Hd|].
    destruct HR as [(e & n & _ & _ & X & _)|(ls & l & ot & HL' & NA & TK & X & DD & DN)]; [discriminate|].
    exists ls. split; [exact TK|]. destruct ot; [discriminate|]. assert (LN : l = []) by (destruct l; [reflexivity | discriminate]). subst l. inversion HL'; subst.
    split; [intros D0 _; split; [constructor | congruence] | intros D0; repeat split; congruence].
Qed.
End Sound.
Lemma wp_run g : forall t s, wp (srun g t s) (PT t s).
Proof.
  induction g as [|g IH]; intros t s; [exact I|]. cbn [srun]. pose proof (mon_run g) as M. pose proof (end_run g) as EN.
  destruct t; [apply wp_statements | apply wp_statement | apply wp_block | apply wp_asblock | apply wp_ascond | apply wp_nextcase]; assumption.
Qed.
