(* LexerProofs.v: the lexer looks at most one byte past the token it gives. *)
From Coq Require Import String List NArith ZArith Lia Bool.
From Coq Require Import ZifyBool ZifyNat ZifyN.
From Verif Require Import Base StringPoolModel LexerModel.
Import ListNotations.
Open Scope N_scope.

(* f gives back a suffix of its input, and its result depends only on what it took and the next byte *)
Definition local {X} (f : text -> X * text) : Prop :=
  forall s x h t, f s = (x, h :: t) -> exists p, s = p ++ h :: t /\ forall t', f (p ++ h :: t') = (x, h :: t').

Lemma local_ret {X} (x : X) : local (fun s => (x, s)).
Proof. intros s y h t E. injection E as <- ->. exists []. split; auto. Qed.

Lemma local_bind {X Y} (f : text -> X * text) (g : X -> text -> Y * text) :
  local f -> (forall x, local (g x)) -> local (fun s => let '(x, r) := f s in g x r).
Proof.
  intros Lf Lg s y h t E. destruct (f s) as [x r] eqn:Ef. destruct (Lg x r y h t E) as (p2 & -> & G2).
  destruct p2 as [|h1 p2].
  - destruct (Lf s x h t Ef) as (p1 & -> & G1). exists p1. split; auto. intros t'. rewrite (G1 t'). apply (G2 t').
  - destruct (Lf s x h1 (p2 ++ h :: t) Ef) as (p1 & -> & G1). exists (p1 ++ h1 :: p2). split; [rewrite <- app_assoc; reflexivity|].
    intros t'. rewrite <- app_assoc. cbn [app]. rewrite G1. apply (G2 t').
Qed.

Lemma local_map {X Y} (f : text -> X * text) (g : X -> Y) : local f -> local (fun s => let '(x, r) := f s in (g x, r)).
Proof. intros L. apply (local_bind f (fun x s => (g x, s))); auto. intros x. apply local_ret. Qed.

(* one byte taken, then decide *)
Lemma local_cons {X} (f : text -> X * text) (x0 : X) (g : N -> text -> X * text) :
  (forall s, f s = match s with [] => (x0, []) | c :: r => g c r end) -> (forall c, local (g c)) -> local f.
Proof.
  intros HF L s x h t E. rewrite HF in E. destruct s as [|c s]; [discriminate|].
  destruct (L c s x h t E) as (p & -> & G). exists (c :: p). split; auto. intros t'. rewrite HF. cbn [app]. apply G.
Qed.

(* a byte looked at, then decide, perhaps without taking it *)
Lemma local_peek {X} (f : text -> X * text) (x0 : X) (g : N -> text -> X * text) :
  (forall s, f s = match s with [] => (x0, []) | c :: _ => g c s end) -> (forall c, local (g c)) -> local f.
Proof.
  intros HF L s x h t E. rewrite HF in E. destruct s as [|c s]; [discriminate|].
  destruct (L c (c :: s) x h t E) as (p & E2 & G). exists p. split; auto. intros t'. rewrite HF.
  destruct p as [|c' p]; cbn [app] in *; injection E2 as -> _; apply G.
Qed.

Lemma local_if {X} (b : bool) (f g : text -> X * text) : local f -> local g -> local (fun s => if b then f s else g s).
Proof. destruct b; auto. Qed.

(* the byte just looked at is taken after all *)
Lemma local_tail {X} (x0 : X) (f : text -> X * text) : local f -> local (fun s => match s with [] => (x0, []) | _ :: r => f r end).
Proof. intros L. apply (local_cons _ x0 (fun _ => f)); auto. Qed.

Lemma local_ext {X} (f g : text -> X * text) : (forall s, f s = g s) -> local f -> local g.
Proof. intros H L s x h t E. rewrite <- H in E. destruct (L s x h t E) as (p & -> & G). exists p. split; auto. intros t'. rewrite <- H. auto. Qed.

Ltac lif := cbv beta; match goal with |- local (fun s => (if ?b then _ else _) s) => destruct b; cbv beta | |- local (if ?b then _ else _) => destruct b
  | |- local (fun s => if ?b then _ else _) => destruct b end.
Lemma local_read : local read.
Proof. apply (local_cons read None (fun c s => (Some c, s))); [intros []; reflexivity|]. intros c. apply local_ret. Qed.

Lemma span_spec p s : let '(a, b) := span p s in s = a ++ b /\ forallb p a = true /\ match b with [] => True | c :: _ => p c = false end.
Proof.
  induction s as [|c s IH]; cbn [span]; [auto|]. destruct (p c) eqn:E; [|auto].
  destruct (span p s) as [a b]. destruct IH as (-> & H1 & H2). cbn [app forallb]. rewrite E. auto.
Qed.
Lemma span_app p a b : forallb p a = true -> match b with [] => True | c :: _ => p c = false end -> span p (a ++ b) = (a, b).
Proof.
  induction a as [|c a IH]; cbn [app forallb span]; intros H1 H2.
  - destruct b as [|d b]; [reflexivity|]. cbn [span]. rewrite H2. reflexivity.
  - apply andb_true_iff in H1 as [H0 H1]. rewrite H0, IH; auto.
Qed.
Lemma local_span p : local (span p).
Proof.
  intros s x h t E. pose proof (span_spec p s) as H. rewrite E in H. destruct H as (-> & H1 & H2). exists x. split; auto.
  intros t'. apply span_app; auto.
Qed.

(* ---- comments ---- *)
Lemma local_block_aux : forall n s x h t, (List.length s <= n)%nat -> eatBlockComment s = (x, h :: t) ->
  exists p, s = p ++ h :: t /\ forall t', eatBlockComment (p ++ h :: t') = (x, h :: t').
Proof.
  induction n as [|n IH]; intros s x h t HL E; destruct s as [|c s]; cbn [List.length] in HL; try lia; cbn [eatBlockComment] in E; [discriminate|discriminate|].
  destruct (c =? 42) eqn:E1.
  - destruct s as [|d s]; [discriminate|]. destruct (d =? 47) eqn:E2.
    + destruct s as [|d2 s]; [discriminate|]. cbn [read] in E. injection E as <- ->. exists [c; d; d2]. split; auto.
      intros t'. cbn [app eatBlockComment]. rewrite E1, E2. reflexivity.
    + destruct (IH (d :: s) x h t) as (p & EP & G); [lia|exact E|]. exists (c :: p). split; [cbn; congruence|].
      intros t'. cbn [app eatBlockComment]. rewrite E1. destruct p as [|d' p]; cbn [app] in *; injection EP as -> _; rewrite E2; apply G.
  - destruct (IH s x h t) as (p & -> & G); [lia|exact E|]. exists (c :: p). split; auto. intros t'. cbn [app eatBlockComment]. rewrite E1. apply G.
Qed.
Lemma local_block : local eatBlockComment.
Proof. intros s x h t. apply (local_block_aux (List.length s)). lia. Qed.

Lemma local_line : local eatLineComment.
Proof.
  intros s x h t. induction s as [|c s IH]; cbn [eatLineComment]; [discriminate|]. destruct (c =? 10) eqn:E.
  - intros H. injection H as <- ->. exists [c]. split; auto. intros t'. cbn [app eatLineComment]. rewrite E. reflexivity.
  - intros H. destruct (IH H) as (p & -> & G). exists (c :: p). split; auto. intros t'. cbn [app eatLineComment]. rewrite E. apply G.
Qed.

Definition sc_fun (acc s : text) : (option N * option text) * text := let '(c, q, t) := structuredComment s acc in ((c, t), q).
Lemma local_structured_aux : forall n acc s x h t, (List.length s <= n)%nat -> sc_fun acc s = (x, h :: t) ->
  exists p, s = p ++ h :: t /\ forall t', sc_fun acc (p ++ h :: t') = (x, h :: t').
Proof.
  induction n as [|n IH]; intros acc s x h t HL E; destruct s as [|c s]; cbn [List.length] in HL; try lia; unfold sc_fun in E; cbn [structuredComment] in E; [discriminate|discriminate|].
  destruct (c =? 42) eqn:E1.
  - destruct s as [|d s]; [discriminate|]. destruct (d =? 47) eqn:E2.
    + destruct s as [|d2 s]; [discriminate|]. cbn [read] in E. injection E as <- ->. exists [c; d; d2]. split; auto.
      intros t'. unfold sc_fun. cbn [app structuredComment]. rewrite E1, E2. reflexivity.
    + destruct (IH (acc ++ [c]) (d :: s) x h t) as (p & EP & G); [lia|exact E|]. exists (c :: p). split; [cbn; congruence|].
      intros t'. unfold sc_fun. cbn [app structuredComment]. rewrite E1. destruct p as [|d' p]; cbn [app] in *; injection EP as -> _; rewrite E2; apply G.
  - destruct (IH (acc ++ [c]) s x h t) as (p & -> & G); [lia|exact E|]. exists (c :: p). split; auto. intros t'. unfold sc_fun. cbn [app structuredComment]. rewrite E1. apply G.
Qed.
Lemma local_structured acc : local (sc_fun acc).
Proof. intros s x h t. apply (local_structured_aux (List.length s)). lia. Qed.

Definition eat_info : Type := (option N * bool * option (option text))%type.
Definition eat_fun (sc : option (option text)) (s : text) : eat_info * text :=
  let e := eatComment s sc in ((e_c e, e_pend e, e_sc e), e_rest e).

Lemma local_eat sc : local (eat_fun sc).
Proof.
  set (fin := fun (q : option N) (s : text) => ((q, false, sc), s) : eat_info * text).
  assert (forall q, local (fin q)) as Lfin by (intros q; apply local_ret).
  apply (local_cons (eat_fun sc) (None, false, sc)
    (fun c s => if c =? 47 then
       match s with
       | [] => ((Some 47, true, sc), [])
       | d :: r => (if d =? 47 then (fun s0 => match s0 with [] => ((Some 47, true, sc), []) | _ :: r => let '(q, r') := eatLineComment r in fin q r' end)
         else if d =? 42 then (fun s0 => match s0 with [] => ((Some 47, true, sc), []) | _ :: r =>
            match r with
            | [] => ((None, false, sc), [])
            | e :: r2 => (if e =? 42 then (fun s1 => match s1 with [] => ((None, false, sc), []) | _ :: r2 =>
                match r2 with
                | [] => ((None, false, Some None), [])
                | f :: r3 => (if f =? 47 then (fun s2 => match s2 with [] => ((None, false, Some None), []) | _ :: r3 => let '(q, r') := read r3 in fin q r' end)
                    else (fun s2 => let '(q, r') := sc_fun [] s2 in ((fst q, false, Some (snd q)), r'))) r2
                end end)
              else (fun s1 => let '(q, r') := eatBlockComment s1 in fin q r')) r
            end end)
         else (fun s0 => ((Some 47, true, sc), s0))) s
       end
     else ((Some c, false, sc), s))).
  - intros s. unfold eat_fun, eatComment, fin. destruct s as [|c r]; [reflexivity|]. destruct (c =? 47); [|reflexivity].
    destruct r as [|d r']; [reflexivity|]. destruct (d =? 47).
    { destruct (eatLineComment r'); reflexivity. }
    destruct (d =? 42); [|reflexivity]. destruct r' as [|e r2]; [reflexivity|]. destruct (e =? 42).
    + destruct r2 as [|f r3]; [reflexivity|]. destruct (f =? 47).
      { destruct (read r3); reflexivity. }
      unfold sc_fun. destruct (structuredComment (f :: r3) []) as [[q r'] tt]. reflexivity.
    + destruct (eatBlockComment (e :: r2)); reflexivity.
  - intros c. lif; [|apply local_ret].
    eapply (local_peek _ (Some 47, true, sc)); [intros s; reflexivity|]. intros d.
    lif; [apply local_tail; apply (local_bind _ fin); auto; apply local_line|].
    lif; [|apply local_ret]. apply local_tail.
    eapply (local_peek _ (None, false, sc)); [intros s; reflexivity|]. intros e.
    lif; [|apply (local_bind _ fin); auto; apply local_block]. apply local_tail.
    eapply (local_peek _ (None, false, Some None)); [intros s; reflexivity|]. intros f.
    lif; [apply local_tail; apply (local_bind _ fin); auto; apply local_read|].
    apply (local_map _ (fun q => (fst q, false, Some (snd q)))). apply local_structured.
Qed.

(* eatComment takes at least a byte *)
Lemma block_shorter : forall n s, (List.length s <= n)%nat -> (List.length (snd (eatBlockComment s)) <= List.length s)%nat.
Proof.
  induction n as [|n IH]; intros [|c s] H; cbn [List.length eatBlockComment snd] in *; try lia.
  destruct (c =? 42).
  - destruct s as [|d s]; cbn [List.length snd]; [lia|]. destruct (d =? 47).
    + destruct s; cbn [read snd List.length]; lia.
    + specialize (IH (d :: s)). cbn [List.length] in *. lia.
  - specialize (IH s). lia.
Qed.
Lemma line_shorter s : (List.length (snd (eatLineComment s)) <= List.length s)%nat.
Proof. induction s as [|c s IH]; cbn [eatLineComment snd List.length]; [lia|]. destruct (c =? 10); cbn [snd]; lia. Qed.
Lemma structured_shorter : forall n acc s, (List.length s <= n)%nat -> (List.length (snd (fst (structuredComment s acc))) <= List.length s)%nat.
Proof.
  induction n as [|n IH]; intros acc [|c s] H; cbn [List.length structuredComment snd fst] in *; try lia.
  destruct (c =? 42).
  - destruct s as [|d s]; cbn [List.length snd fst]; [lia|]. destruct (d =? 47).
    + destruct s; cbn [read snd fst List.length]; lia.
    + specialize (IH (acc ++ [c]) (d :: s)). cbn [List.length] in *. lia.
  - specialize (IH (acc ++ [c]) s). lia.
Qed.
Lemma read_shorter s : (List.length (snd (read s)) <= List.length s)%nat.
Proof. destruct s; cbn; lia. Qed.

Lemma eat_shorter s sc : s <> [] -> (List.length (e_rest (eatComment s sc)) < List.length s)%nat.
Proof.
  destruct s as [|c r]; [congruence|]. intros _. unfold eatComment. destruct (c =? 47); [|cbn; lia].
  destruct r as [|d r']; [cbn; lia|]. destruct (d =? 47).
  { pose proof (line_shorter r'). destruct (eatLineComment r'). cbn in *. lia. }
  destruct (d =? 42); [|cbn; lia]. destruct r' as [|e r2]; [cbn; lia|]. destruct (e =? 42).
  - destruct r2 as [|f r3]; [cbn; lia|]. destruct (f =? 47).
    + pose proof (read_shorter r3). destruct (read r3). cbn in *. lia.
    + pose proof (structured_shorter (List.length (f :: r3)) [] (f :: r3) (le_n _)). destruct (structuredComment (f :: r3) []) as [[q r'] tt]. cbn in *. lia.
  - pose proof (block_shorter (List.length (e :: r2)) (e :: r2) (le_n _)). destruct (eatBlockComment (e :: r2)). cbn in *. lia.
Qed.

Lemma skip_fuel_enough : forall f g s sc, (List.length s <= f)%nat -> (List.length s <= g)%nat -> skip_fuel f s sc = skip_fuel g s sc.
Proof.
  assert (forall f s sc, (List.length s <= f)%nat -> skip_fuel (S f) s sc = skip_fuel f s sc) as H.
  { induction f as [|f IH]; intros s sc HL.
    - destruct s; cbn in HL; [|lia]. reflexivity.
    - change (skip_fuel (S (S f)) s sc) with (let e := eatComment s sc in match e_c e with Some c => if isspace c then skip_fuel (S f) (e_rest e) (e_sc e) else e | None => e end).
      change (skip_fuel (S f) s sc) with (let e := eatComment s sc in match e_c e with Some c => if isspace c then skip_fuel f (e_rest e) (e_sc e) else e | None => e end).
      cbv zeta. destruct (e_c (eatComment s sc)) as [c|] eqn:EC; [|reflexivity]. destruct (isspace c); [|reflexivity].
      apply IH. destruct s as [|a s]; [cbn in EC; discriminate|]. pose proof (eat_shorter (a :: s) sc ltac:(discriminate)). lia. }
  assert (forall d f s sc, (List.length s <= f)%nat -> skip_fuel (d + f) s sc = skip_fuel f s sc) as H2.
  { induction d as [|d IH]; intros f s sc HL; cbn [plus]; [reflexivity|]. rewrite H by lia. auto. }
  intros f g s sc Hf Hg. destruct (Nat.le_ge_cases f g) as [L|L].
  - replace g with ((g - f) + f)%nat by lia. symmetry. apply H2. auto.
  - replace f with ((f - g) + g)%nat by lia. apply H2. auto.
Qed.

(* the loop of getNextToken, without fuel *)
Definition skip_sc (s : text) (sc : option (option text)) : eaten := skip_fuel (List.length s) s sc.
Lemma skip_unfold s sc : skip_sc s sc =
  let e := eatComment s sc in
  match e_c e with Some c => if isspace c then skip_sc (e_rest e) (e_sc e) else e | None => e end.
Proof.
  unfold skip_sc. rewrite (skip_fuel_enough (List.length s) (S (List.length s))) by lia.
  cbn [skip_fuel]. cbv zeta. destruct (e_c (eatComment s sc)) as [c|] eqn:EC; [|reflexivity]. destruct (isspace c); [|reflexivity].
  destruct s as [|a s]; [cbn in EC; discriminate|]. pose proof (eat_shorter (a :: s) sc ltac:(discriminate)).
  apply skip_fuel_enough; lia.
Qed.

Definition skip_fun (sc : option (option text)) (s : text) : eat_info * text :=
  let e := skip_sc s sc in ((e_c e, e_pend e, e_sc e), e_rest e).
Lemma skip_fun_unfold sc s : skip_fun sc s =
  let '(i, r) := eat_fun sc s in
  (let '(c, pd, sc') := i in
   match c with Some c => if isspace c then skip_fun sc' else (fun r => (i, r)) | None => fun r => (i, r) end) r.
Proof.
  unfold skip_fun at 1. rewrite skip_unfold. unfold eat_fun. cbv zeta. destruct (e_c (eatComment s sc)) as [c|] eqn:EC.
  - destruct (isspace c); [reflexivity|]. rewrite EC. reflexivity.
  - rewrite EC. reflexivity.
Qed.

Lemma local_skip sc : local (skip_fun sc).
Proof.
  intros s. assert (exists n, (List.length s <= n)%nat) as (n & HL) by eauto. revert s sc HL.
  induction n as [|n IH]; intros s sc HL x h t E; rewrite skip_fun_unfold in E; destruct (eat_fun sc s) as [[[c pd] sc'] r] eqn:EE.
  - destruct s; [|cbn in HL; lia]. unfold eat_fun in EE. cbn in EE. injection EE as <- <- <- <-. discriminate.
  - assert (s <> []) as HN by (intros ->; unfold eat_fun in EE; cbn in EE; injection EE as <- <- <- <-; discriminate).
    assert (List.length r < List.length s)%nat as HR.
    { pose proof (eat_shorter s sc HN). unfold eat_fun in EE. injection EE as _ _ _ <-. lia. }
    assert (exists p2, r = p2 ++ h :: t /\ forall t', (match c with Some c0 => if isspace c0 then skip_fun sc' else (fun r => (c, pd, sc', r)) | None => fun r => (c, pd, sc', r) end) (p2 ++ h :: t') = (x, h :: t')) as (p2 & -> & G2).
    { destruct c as [c|].
      - destruct (isspace c).
        + apply IH; [lia|exact E].
        + injection E as <- ->. exists []. auto.
      - injection E as <- ->. exists []. auto. }
    destruct p2 as [|h1 p2].
    + destruct (local_eat sc s (c, pd, sc') h t EE) as (p1 & -> & G1). exists p1. split; auto. intros t'. rewrite skip_fun_unfold, (G1 t'). apply (G2 t').
    + destruct (local_eat sc s (c, pd, sc') h1 (p2 ++ h :: t) EE) as (p1 & -> & G1). exists (p1 ++ h1 :: p2). split; [rewrite <- app_assoc; reflexivity|].
      intros t'. rewrite <- app_assoc. cbn [app]. rewrite skip_fun_unfold, G1. apply (G2 t').
Qed.

(* ---- the makers ---- *)
Lemma local_operator a : local (fun s => let '(x, ty, r) := makeOperatorToken a s in ((x, ty), r)).
Proof.
  eapply (local_peek _ (a, getTokenType a) (fun c => match getTokenType (a ++ [c]) with
    | Some ty => (fun s => match s with [] => ((a, None), []) | _ :: r =>
        (if String.eqb (r_name ty) "ELLIPSIS" then
          (fun r => match r with [] => ((a ++ [c], None), []) | c3 :: r' =>
             (if c3 =? 46 then (fun s => match s with [] => ((a, None), []) | _ :: r => ((a ++ [c] ++ [c3], Some ty), r) end) else (fun s => ((a ++ [c] ++ [c3], None), s))) r end)
        else if String.eqb (r_name ty) "SHIFT_LEFT" || String.eqb (r_name ty) "SHIFT_RIGHT" then
          (fun r => match r with [] => ((a ++ [c], None), []) | c3 :: r' =>
             (if c3 =? 61 then (fun s => match s with [] => ((a, None), []) | _ :: r => ((a ++ [c] ++ [c3], getTokenType (a ++ [c] ++ [c3])), r) end) else (fun s => ((a ++ [c], Some ty), s))) r end)
        else (fun r => ((a ++ [c], Some ty), r))) r end)
    | None => fun s => ((firstn 1 (a ++ [c]), getTokenType (firstn 1 (a ++ [c]))), s) end)).
  - intros [|c r]; [reflexivity|]. unfold makeOperatorToken. cbn [read]. destruct (getTokenType (a ++ [c])) as [ty|]; [|reflexivity].
    destruct (String.eqb (r_name ty) "ELLIPSIS").
    { destruct r as [|c3 r]; [reflexivity|]. rewrite <- app_assoc. destruct (c3 =? 46); reflexivity. }
    destruct (String.eqb (r_name ty) "SHIFT_LEFT" || String.eqb (r_name ty) "SHIFT_RIGHT"); [|reflexivity].
    destruct r as [|c3 r]; [reflexivity|]. rewrite <- app_assoc. destruct (c3 =? 61); reflexivity.
  - intros c. destruct (getTokenType (a ++ [c])) as [ty|]; [|apply local_ret]. apply local_tail.
    lif.
    { eapply (local_peek _ (a ++ [c], None)); [intros s; reflexivity|]. intros c3. lif; [|apply local_ret]. apply local_tail. apply local_ret. }
    lif; [|apply local_ret].
    eapply (local_peek _ (a ++ [c], None)); [intros s; reflexivity|]. intros c3. lif; [|apply local_ret]. apply local_tail. apply local_ret.
Qed.

Lemma local_word a : local (makeWordToken a).
Proof.
  apply (local_ext (fun s => let '(w, r) := span wordchar s in
    (let aname := a ++ w in
     let identifier :=
       if MAX_IDENTIFIER_LENGTH <? N.of_nat (List.length aname) then TokError
       else if isupper (hd 0 aname) then Tok "TYPE_IDENTIFIER" (Some aname) else Tok "IDENTIFIER" (Some aname) in
     match getTokenType aname with
     | Some ty =>
       match r_sp ty with
       | SpKEYWORD | SpTYPEKEYWORD | SpCTLKEYWORD => (fun r => (Tok (r_name ty) None, r))
       | SpOPERATORKEYWORD => (fun r =>
         let '(x, r1) := (let '(x, ty, r) := makeOperatorToken [] r in ((x, ty), r)) in
         (match x with (op1, Some _) => (fun r1 =>
             let '(x2, r2) := (let '(x, ty, r) := makeOperatorToken op1 r1 in ((x, ty), r)) in
             (match x2 with (_, Some ty2) => (fun r2 => (match operatorName ty2 with Some n => Tok "IDENTIFIER" (Some n) | None => TokError end, r2))
              | (_, None) => (fun r2 => (TokError, r2)) end) r2)
          | (_, None) => (fun r1 => (TokError, r1)) end) r1)
       | _ => (fun r => (TokError, r))
       end
     | None => (fun r => (identifier, r))
     end) r)).
  - intros s. unfold makeWordToken. destruct (span wordchar s) as [w r]. cbv zeta. destruct (getTokenType (a ++ w)) as [ty|]; [|reflexivity].
    destruct (r_sp ty); try reflexivity. destruct (makeOperatorToken [] r) as [[op1 o1] r1]. destruct o1; [|reflexivity].
    destruct (makeOperatorToken op1 r1) as [[op2 o2] r2]. destruct o2 as [ty2|]; [|reflexivity]. destruct (operatorName ty2); reflexivity.
  - apply local_bind; [apply local_span|]. intros w. cbv zeta. destruct (getTokenType (a ++ w)) as [ty|]; [|apply local_ret].
    destruct (r_sp ty); try apply local_ret.
    eapply local_bind; [apply local_operator|]. intros [op1 [ty1|]]; [|apply local_ret].
    eapply local_bind; [apply local_operator|]. intros [op2 [ty2|]]; apply local_ret.
Qed.

Lemma local_number a : local (makeNumberToken a).
Proof.
  apply (local_ext (fun s =>
    let '(fs, s1) := match s with [] => ((nf0, []), []) | c :: r =>
       (if isxdigit c || (c =? 120) || (c =? 88) || (c =? 46) then (fun s0 => match s0 with [] => ((nf0, []), []) | _ :: r => ((nf_second a c, [c]), r) end) else (fun s => ((nf0, []), s))) s end in
    (let '(f, second) := fs in (fun s1 =>
    let '(more, s2) := span numchar s1 in
    (fun s2 =>
    let f := fold_left nf_next more f in
    let '(uu, s3) := match s2 with [] => (([], nf_uns f), []) | c :: r =>
       (if (c =? 117) || (c =? 85) then (fun s0 => match s0 with [] => (([], nf_uns f), []) | _ :: r => (([c], true), r) end) else (fun s => (([], nf_uns f), s))) s2 end in
    (fun s3 => let '(u, uns) := uu in
    let anumber := a :: second ++ more ++ u in
    (if nf_bad f then TokError
    else if nf_float f then Tok "NUMBER_FLOAT" (Some anumber)
    else if uns then Tok "NUMBER_UNSIGNED" (Some anumber)
    else Tok "NUMBER_SIGNED" (Some anumber), s3)) s3) s2)) s1)).
  - intros s. unfold makeNumberToken.
    assert (forall f second s1, (let '(more, s2) := span numchar s1 in
      let f' := fold_left nf_next more f in
      let '(uu, s3) := match s2 with [] => (([], nf_uns f'), []) | c :: r =>
       (if (c =? 117) || (c =? 85) then (fun s0 => match s0 with [] => (([], nf_uns f'), []) | _ :: r => (([c], true), r) end) else (fun s => (([], nf_uns f'), s))) s2 end in
      let '(u, uns) := uu in
      (if nf_bad f' then TokError
      else if nf_float f' then Tok "NUMBER_FLOAT" (Some (a :: second ++ more ++ u))
      else if uns then Tok "NUMBER_UNSIGNED" (Some (a :: second ++ more ++ u))
      else Tok "NUMBER_SIGNED" (Some (a :: second ++ more ++ u)), s3)) =
      let '(more, s2) := span numchar s1 in
      let f := fold_left nf_next more f in
      let '(u, s3, uns) :=
        match s2 with
        | c :: r => if (c =? 117) || (c =? 85) then ([c], r, true) else ([], s2, nf_uns f)
        | [] => ([], [], nf_uns f)
        end in
      let anumber := a :: second ++ more ++ u in
      if nf_bad f then (TokError, s3)
      else if nf_float f then (Tok "NUMBER_FLOAT" (Some anumber), s3)
      else if uns then (Tok "NUMBER_UNSIGNED" (Some anumber), s3)
      else (Tok "NUMBER_SIGNED" (Some anumber), s3)) as H.
    { intros f second s1. destruct (span numchar s1) as [more s2]. cbv zeta. destruct s2 as [|c s2].
      - destruct (nf_bad (fold_left nf_next more f)), (nf_float (fold_left nf_next more f)), (nf_uns (fold_left nf_next more f)); reflexivity.
      - destruct ((c =? 117) || (c =? 85)); destruct (nf_bad (fold_left nf_next more f)), (nf_float (fold_left nf_next more f)), (nf_uns (fold_left nf_next more f)); reflexivity. }
    destruct s as [|c s]; [apply (H nf0 [] [])|]. destruct (isxdigit c || (c =? 120) || (c =? 88) || (c =? 46)); [apply (H (nf_second a c) [c] s)|apply (H nf0 [] (c :: s))].
  - eapply (local_bind (fun s => match s with [] => ((nf0, []), []) | c :: r =>
       (if isxdigit c || (c =? 120) || (c =? 88) || (c =? 46) then (fun s0 => match s0 with [] => ((nf0, []), []) | _ :: r => ((nf_second a c, [c]), r) end) else (fun s => ((nf0, []), s))) s end)).
    + eapply (local_peek _ (nf0, [])); [intros s; reflexivity|]. intros c. lif; [apply local_tail|]; apply local_ret.
    + intros [f second]. apply local_bind; [apply local_span|]. intros more. cbv zeta.
      eapply (local_bind (fun s2 => match s2 with [] => (([], nf_uns (fold_left nf_next more f)), []) | c :: r =>
       (if (c =? 117) || (c =? 85) then (fun s0 => match s0 with [] => (([], nf_uns (fold_left nf_next more f)), []) | _ :: r => (([c], true), r) end) else (fun s => (([], nf_uns (fold_left nf_next more f)), s))) s2 end)).
      * eapply (local_peek _ ([], nf_uns (fold_left nf_next more f))); [intros s; reflexivity|]. intros c. lif; [apply local_tail|]; apply local_ret.
      * intros [u uns]. apply local_ret.
Qed.

Lemma local_flag : local makeFlagToken.
Proof.
  apply (local_peek _ TokError (fun c => if isupper c then
     (fun s => let '(w, q) := span wordchar s in
      (match getTokenType (64 :: w) with Some ty => if special_eqb (r_sp ty) SpFLAGKEYWORD then Tok (r_name ty) None else TokError | None => TokError end, q))
     else if isalpha c then (fun s => (TokError, s)) else (fun s => match s with [] => (TokError, []) | _ :: r => (TokError, r) end))).
  - intros [|c s]; [reflexivity|]. unfold makeFlagToken. destruct (isupper c).
    + destruct (span wordchar (c :: s)) as [w q]. destruct (getTokenType (64 :: w)) as [ty|]; [|reflexivity]. destruct (special_eqb (r_sp ty) SpFLAGKEYWORD); reflexivity.
    + destruct (isalpha c); reflexivity.
  - intros c. lif; [apply local_map; apply local_span|]. lif; [apply local_ret|]. apply local_tail. apply local_ret.
Qed.

Lemma local_substitute : local makeSubstituteToken.
Proof.
  apply (local_peek _ TokError (fun c => if c =? 95 then
     (fun s => let '(w, q) := span (fun c => isupper c || (c =? 95)) s in
      (match getTokenType (95 :: w) with Some ty => if special_eqb (r_sp ty) SpFLAGKEYWORD then Tok (r_name ty) None else TokError | None => TokError end, q))
     else (fun s => match s with [] => (TokError, []) | _ :: r => (TokError, r) end))).
  - intros [|c s]; [reflexivity|]. unfold makeSubstituteToken. destruct (c =? 95).
    + destruct (span _ (c :: s)) as [w q]. destruct (getTokenType (95 :: w)) as [ty|]; [|reflexivity]. destruct (special_eqb (r_sp ty) SpFLAGKEYWORD); reflexivity.
    + reflexivity.
  - intros c. lif; [apply local_map; apply local_span|]. apply local_tail. apply local_ret.
Qed.

Lemma local_octal n : forall total count, local (fun s => octalLoop n s total count).
Proof.
  induction n as [|n IH]; intros total count; [apply local_ret|].
  apply (local_peek _ None (fun c => if isoctal c then (fun s => match s with [] => (None, []) | _ :: r => octalLoop n r (total * 8 + (c - 48)) (count + 1) end) else (fun s => (Some (total, count), s)))).
  - intros [|c s]; [reflexivity|]. cbn [octalLoop]. destruct (isoctal c); reflexivity.
  - intros c. lif; [apply local_tail; apply IH|apply local_ret].
Qed.
Lemma local_formatOctal : local formatOctalConstant.
Proof.
  apply (local_ext (fun s => let '(x, r) := octalLoop 3 s 0 0 in (match x with Some (total, count) => if count =? 0 then None else if total <=? 255 then Some total else None | None => None end, r))).
  - intros s. unfold formatOctalConstant. destruct (octalLoop 3 s 0 0) as [[[t c]|] r]; reflexivity.
  - apply (local_map (fun s => octalLoop 3 s 0 0)). apply local_octal.
Qed.
Lemma local_hex n : forall total count, local (fun s => hexLoop n s total count).
Proof.
  induction n as [|n IH]; intros total count; [apply local_ret|].
  apply (local_peek _ None (fun c => if isxdigit c then (fun s => match s with [] => (None, []) | _ :: r => hexLoop n r (total * 16 + hexval c) (count + 1) end) else (fun s => (Some (total, count), s)))).
  - intros [|c s]; [reflexivity|]. cbn [hexLoop]. destruct (isxdigit c); reflexivity.
  - intros c. lif; [apply local_tail; apply IH|apply local_ret].
Qed.
Lemma local_formatHex : local formatHexConstant.
Proof.
  apply (local_ext (fun s => let '(x, r) := hexLoop 2 s 0 0 in (match x with Some (total, count) => if count =? 0 then None else if total <=? 255 then Some total else None | None => None end, r))).
  - intros s. unfold formatHexConstant. destruct (hexLoop 2 s 0 0) as [[[t c]|] r]; reflexivity.
  - apply (local_map (fun s => hexLoop 2 s 0 0)). apply local_hex.
Qed.

Lemma local_nextByte : local nextByte.
Proof.
  apply (local_cons nextByte None (fun c => if c =? 92 then (fun r => match r with [] => (None, []) | d :: q =>
     (if isoctal d then formatOctalConstant else (fun s => match s with [] => (None, []) | _ :: q =>
        (if (d =? 120) || (d =? 88) then formatHexConstant else (fun q => (Some (
         if d =? 97 then 7 else if d =? 98 then 8 else if d =? 116 then 9
        else if d =? 110 then 10 else if d =? 118 then 11 else if d =? 102 then 12
        else if d =? 114 then 13 else d), q))) q end)) r end) else (fun r => (Some c, r)))).
  - intros [|c r]; [reflexivity|]. unfold nextByte. destruct (c =? 92); [|reflexivity]. destruct r as [|d q]; [reflexivity|].
    unfold isoctal.
    destruct (N.eqb_spec d 97) as [->|]; [reflexivity|]. destruct (N.eqb_spec d 98) as [->|]; [reflexivity|].
    destruct (N.eqb_spec d 116) as [->|]; [reflexivity|]. destruct (N.eqb_spec d 110) as [->|]; [reflexivity|].
    destruct (N.eqb_spec d 118) as [->|]; [reflexivity|]. destruct (N.eqb_spec d 102) as [->|]; [reflexivity|].
    destruct (N.eqb_spec d 114) as [->|]; [reflexivity|]. destruct (N.eqb_spec d 34) as [->|]; [reflexivity|].
    destruct (N.eqb_spec d 39) as [->|]; [reflexivity|]. destruct (N.eqb_spec d 92) as [->|]; [reflexivity|].
    destruct ((48 <=? d) && (d <? 56)); [reflexivity|]. destruct ((d =? 120) || (d =? 88)); reflexivity.
  - intros c. lif; [|apply local_ret].
    eapply (local_peek _ None); [intros s; reflexivity|]. intros d. lif; [apply local_formatOctal|].
    apply local_tail. lif; [apply local_formatHex|apply local_ret].
Qed.

Lemma octal_shorter n : forall s t c, (List.length (snd (octalLoop n s t c)) <= List.length s)%nat.
Proof. induction n as [|n IH]; intros [|x s] t c; cbn [octalLoop snd List.length]; try lia. destruct (isoctal x); cbn [snd List.length]; [specialize (IH s (t * 8 + (x - 48)) (c + 1))|]; lia. Qed.
Lemma hex_shorter n : forall s t c, (List.length (snd (hexLoop n s t c)) <= List.length s)%nat.
Proof. induction n as [|n IH]; intros [|x s] t c; cbn [hexLoop snd List.length]; try lia. destruct (isxdigit x); cbn [snd List.length]; [specialize (IH s (t * 16 + hexval x) (c + 1))|]; lia. Qed.
Lemma nextByte_shorter s : s <> [] -> (List.length (snd (nextByte s)) < List.length s)%nat.
Proof.
  destruct s as [|c r]; [congruence|]. intros _. unfold nextByte. destruct (c =? 92); [|cbn; lia]. destruct r as [|d q]; [cbn; lia|].
  assert (List.length (snd (formatOctalConstant (d :: q))) <= List.length (d :: q))%nat as H1.
  { unfold formatOctalConstant. pose proof (octal_shorter 3 (d :: q) 0 0). destruct (octalLoop 3 (d :: q) 0 0) as [[[t k]|] r]; auto. }
  assert (List.length (snd (formatHexConstant q)) <= List.length q)%nat as H2.
  { unfold formatHexConstant. pose proof (hex_shorter 2 q 0 0). destruct (hexLoop 2 q 0 0) as [[[t k]|] r]; auto. }
  repeat match goal with |- context [if ?b then _ else _] => destruct b end; cbn [snd List.length] in *; lia.
Qed.

Lemma dquote_enough : forall f g s acc, (List.length s < f)%nat -> (List.length s < g)%nat -> dquote_fuel f s acc = dquote_fuel g s acc.
Proof.
  induction f as [|f IH]; intros g s acc Hf Hg; [lia|]. destruct g as [|g]; [lia|]. cbn [dquote_fuel]. destruct s as [|c r]; [reflexivity|].
  destruct (c =? 34); [reflexivity|]. pose proof (nextByte_shorter (c :: r) ltac:(discriminate)) as HS. destruct (nextByte (c :: r)) as [[b|] q]; [|reflexivity].
  cbn [snd] in HS. apply IH; lia.
Qed.
Definition dquote (acc s : text) : option text * text := dquote_fuel (S (List.length s)) s acc.
Lemma dquote_unfold acc s : dquote acc s = match s with [] => (None, []) | c :: r =>
   if c =? 34 then (Some acc, r) else match nextByte s with (Some b, q) => dquote (acc ++ [b]) q | (None, q) => (None, q) end end.
Proof.
  unfold dquote at 1. change (dquote_fuel (S (List.length s)) s acc) with (match s with [] => (None, []) | c :: r =>
   if c =? 34 then (Some acc, r) else match nextByte s with (Some b, q) => dquote_fuel (List.length s) q (acc ++ [b]) | (None, q) => (None, q) end end).
  destruct s as [|c r]; [reflexivity|]. destruct (c =? 34); [reflexivity|].
  pose proof (nextByte_shorter (c :: r) ltac:(discriminate)) as HS. destruct (nextByte (c :: r)) as [[b|] q]; [|reflexivity]. cbn [snd] in HS.
  unfold dquote. apply dquote_enough; lia.
Qed.
Lemma local_dquote : forall n acc s x h t, (List.length s <= n)%nat -> dquote acc s = (x, h :: t) ->
  exists p, s = p ++ h :: t /\ forall t', dquote acc (p ++ h :: t') = (x, h :: t').
Proof.
  induction n as [|n IH]; intros acc s x h t HL E; rewrite dquote_unfold in E; destruct s as [|c s]; try discriminate; cbn [List.length] in HL; [lia|].
  destruct (c =? 34) eqn:EC.
  - injection E as <- ->. exists [c]. split; auto. intros t'. rewrite dquote_unfold. cbn [app]. rewrite EC. reflexivity.
  - pose proof (nextByte_shorter (c :: s) ltac:(discriminate)) as HS. destruct (nextByte (c :: s)) as [[b|] q] eqn:EB; cbn [snd List.length] in HS.
    + destruct (IH (acc ++ [b]) q x h t) as (p2 & -> & G2); [lia|exact E|]. destruct p2 as [|h1 p2].
      * destruct (local_nextByte (c :: s) (Some b) h t EB) as ([|c1 p1] & EP & G1); cbn [app] in EP.
        { exfalso. injection EP as -> ->. cbn in HS. lia. }
        injection EP as <- ->. exists (c :: p1). split; auto. intros t'. rewrite dquote_unfold. cbn [app]. rewrite EC. cbn [app] in G1. rewrite G1. apply G2.
      * destruct (local_nextByte (c :: s) (Some b) h1 (p2 ++ h :: t) EB) as ([|c1 p1] & EP & G1); cbn [app] in EP.
        { exfalso. injection EP as -> ->. cbn in HS. lia. }
        injection EP as <- ->. exists (c :: p1 ++ h1 :: p2). split; [cbn; rewrite <- app_assoc; reflexivity|]. intros t'. rewrite dquote_unfold. cbn [app].
        rewrite EC, <- app_assoc. cbn [app] in *. rewrite G1. apply G2.
    + injection E as <- ->. destruct (local_nextByte (c :: s) None h t EB) as (p1 & EP & G1). destruct p1 as [|c1 p1]; cbn [app] in EP.
      { exfalso. injection EP as -> ->. cbn in HS. lia. }
      injection EP as <- ->. exists (c :: p1). split; auto. intros t'. rewrite dquote_unfold. cbn [app]. rewrite EC. cbn [app] in G1. rewrite G1. reflexivity.
Qed.

Lemma local_double : local makeDoubleQuoteToken.
Proof.
  apply (local_ext (fun s => let '(x, r) := dquote [] s in (match x with Some b => match format_user b with Some _ => Tok "DQUOTED_STRING" (Some b) | None => TokError end | None => TokError end, r))).
  - intros s. unfold makeDoubleQuoteToken, dquote. destruct (dquote_fuel (S (List.length s)) s []) as [[b|] r]; reflexivity.
  - apply (local_map (dquote [])). intros s x h t. apply (local_dquote (List.length s)). lia.
Qed.

Lemma local_single : local makeSingleQuoteToken.
Proof.
  apply (local_peek _ TokError (fun c => if c =? 39 then (fun s => match s with [] => (TokError, []) | _ :: r => (TokError, r) end)
     else (fun s => let '(x, q) := nextByte s in (match x with Some b => (fun q => match q with [] => (TokError, []) | d :: r =>
        (if d =? 39 then (fun s => match s with [] => (TokError, []) | _ :: r => (Tok "SQUOTED_STRING" (Some [b]), r) end) else (fun s => (TokError, s))) q end)
        | None => (fun q => (TokError, q)) end) q))).
  - intros [|c s]; [reflexivity|]. unfold makeSingleQuoteToken. destruct (c =? 39); [reflexivity|]. destruct (nextByte (c :: s)) as [[b|] q]; [|reflexivity].
    destruct q as [|d q]; [reflexivity|]. destruct (d =? 39); reflexivity.
  - intros c. lif; [apply local_tail; apply local_ret|]. apply local_bind; [apply local_nextByte|]. intros [b|]; [|apply local_ret].
    eapply (local_peek _ TokError); [intros s; reflexivity|]. intros d. lif; [apply local_tail|]; apply local_ret.
Qed.

(* ---- getNextToken ---- *)
Definition next_unclear (c : N) (s : text) : token * text :=
  if isalpha c then makeWordToken [c] s
  else if isdigit c then makeNumberToken c s
  else if c =? 64 then makeFlagToken s
  else if c =? 95 then makeSubstituteToken s
  else match makeOperatorToken [c] s with
       | (_, Some ty, r) => (Tok (r_name ty) None, r)
       | (_, None, r) => (TokError, r)
       end.
Definition next_byte (c : N) (s : text) : token * text :=
  match getTokenType [c] with
  | Some ty =>
    match r_sp ty with
    | SpSINGLE => (Tok (r_name ty) None, s)
    | SpDQUOTE => makeDoubleQuoteToken s
    | SpSQUOTE => makeSingleQuoteToken s
    | _ => next_unclear c s
    end
  | None => next_unclear c s
  end.
Definition sc_token (t : option text) : token := match t with Some d => Tok "STRUCTURED_COMMENT" (Some d) | None => Tok "ERROR_LOWLEVEL" None end.

Lemma getNextToken_eq s : getNextToken s = let '(i, r) := skip_fun None s in
  let '(c, pd, sc) := i in
  match sc with
  | Some t => (sc_token t, if pd then r else unread c r)
  | None => match c with Some c => next_byte c r | None => (Tok "EOF" None, r) end
  end.
Proof.
  unfold getNextToken, skip_fun. change (skip_sc s None) with (skip s). destruct (skip s) as [c r pd sc]. cbv zeta. cbn [e_c e_rest e_pend e_sc].
  destruct sc as [[d|]|]; [reflexivity|reflexivity|]. destruct c as [c|]; [|reflexivity].
  unfold next_byte, next_unclear. reflexivity.
Qed.

Lemma local_unclear c : local (next_unclear c).
Proof.
  unfold next_unclear. lif; [apply local_word|]. lif; [apply local_number|]. lif; [apply local_flag|]. lif; [apply local_substitute|].
  apply (local_ext (fun s => let '(x, r) := (let '(x, ty, r) := makeOperatorToken [c] s in ((x, ty), r)) in (match snd x with Some ty => Tok (r_name ty) None | None => TokError end, r))).
  - intros s. destruct (makeOperatorToken [c] s) as [[x [ty|]] r]; reflexivity.
  - apply (local_map (fun s => let '(x, ty, r) := makeOperatorToken [c] s in ((x, ty), r))). apply local_operator.
Qed.
Lemma local_byte c : local (next_byte c).
Proof.
  unfold next_byte. destruct (getTokenType [c]) as [ty|]; [|apply local_unclear].
  destruct (r_sp ty); try apply local_unclear; [apply local_ret|apply local_double|apply local_single].
Qed.

(* ---- the byte given back after a comment ---- *)
(* f ends with the byte k tells, and its result depends on nothing after that *)
Definition exact {X} (k : X -> option N) (f : text -> X * text) : Prop :=
  forall s x r c, k x = Some c -> f s = (x, r) -> exists p, s = p ++ c :: r /\ forall t', f (p ++ c :: t') = (x, t').

Lemma exact_read : exact (fun x => x) read.
Proof. intros [|a s] x r c K E; cbn in E; injection E as <- <-; [discriminate|]. injection K as ->. exists []. auto. Qed.

Lemma exact_block_aux : forall n s x r c, (List.length s <= n)%nat -> x = Some c -> eatBlockComment s = (x, r) ->
  exists p, s = p ++ c :: r /\ forall t', eatBlockComment (p ++ c :: t') = (x, t').
Proof.
  induction n as [|n IH]; intros s x r c0 HL K E; destruct s as [|c s]; cbn [List.length] in HL; try lia; cbn [eatBlockComment] in E; [congruence|congruence|].
  destruct (c =? 42) eqn:E1.
  - destruct s as [|d s]; [congruence|]. destruct (d =? 47) eqn:E2.
    + destruct s as [|d2 s]; cbn [read] in E; [congruence|]. injection E as E3 ->. exists [c; d]. split; [cbn; congruence|].
      intros t'. cbn [app eatBlockComment]. rewrite E1, E2. cbn. congruence.
    + destruct (IH (d :: s) x r c0) as (p & EP & G); [lia|auto|exact E|]. exists (c :: p). split; [cbn; congruence|].
      intros t'. cbn [app eatBlockComment]. rewrite E1. destruct p as [|d' p]; cbn [app] in *; injection EP as -> _; rewrite E2; apply G.
  - destruct (IH s x r c0) as (p & -> & G); [lia|auto|exact E|]. exists (c :: p). split; auto. intros t'. cbn [app eatBlockComment]. rewrite E1. apply G.
Qed.
Lemma exact_line s x r c : x = Some c -> eatLineComment s = (x, r) -> exists p, s = p ++ c :: r /\ forall t', eatLineComment (p ++ c :: t') = (x, t').
Proof.
  intros ->. induction s as [|a s IH]; cbn [eatLineComment]; [discriminate|]. destruct (a =? 10) eqn:E.
  - intros H. injection H as <- ->. exists []. split; auto. intros t'. cbn [app eatLineComment]. rewrite E. reflexivity.
  - intros H. destruct (IH H) as (p & -> & G). exists (a :: p). split; auto. intros t'. cbn [app eatLineComment]. rewrite E. apply G.
Qed.
Lemma exact_structured_aux : forall n acc s x r c, (List.length s <= n)%nat -> fst x = Some c -> sc_fun acc s = (x, r) ->
  exists p, s = p ++ c :: r /\ forall t', sc_fun acc (p ++ c :: t') = (x, t').
Proof.
  induction n as [|n IH]; intros acc s x r c0 HL K E; destruct s as [|c s]; cbn [List.length] in HL; try lia; unfold sc_fun in E; cbn [structuredComment] in E;
    [injection E as <- <-; discriminate|injection E as <- <-; discriminate|].
  destruct (c =? 42) eqn:E1.
  - destruct s as [|d s]; [injection E as <- <-; discriminate|]. destruct (d =? 47) eqn:E2.
    + destruct s as [|d2 s]; cbn [read] in E; injection E as <- <-; [discriminate|]. cbn [fst] in K. injection K as ->. exists [c; d]. split; auto.
      intros t'. unfold sc_fun. cbn [app structuredComment]. rewrite E1, E2. reflexivity.
    + destruct (IH (acc ++ [c]) (d :: s) x r c0) as (p & EP & G); [lia|auto|exact E|]. exists (c :: p). split; [cbn; congruence|].
      intros t'. unfold sc_fun. cbn [app structuredComment]. rewrite E1. destruct p as [|d' p]; cbn [app] in *; injection EP as -> _; rewrite E2; apply G.
  - destruct (IH (acc ++ [c]) s x r c0) as (p & -> & G); [lia|auto|exact E|]. exists (c :: p). split; auto. intros t'. unfold sc_fun. cbn [app structuredComment]. rewrite E1. apply G.
Qed.

Definition eat_key (i : eat_info) : option N := let '(c, pd, _) := i in if pd then None else c.

Lemma exact_eat sc : exact eat_key (eat_fun sc).
Proof.
  intros s x r c K E. unfold eat_fun, eatComment in E. destruct s as [|c1 s1]; [injection E as <- <-; discriminate|].
  destruct (N.eqb_spec c1 47) as [->|N1].
  2:{ injection E as <- <-. cbn in K. injection K as ->. exists []. split; auto. intros t'. unfold eat_fun, eatComment. cbn [app].
      destruct (N.eqb_spec c 47); [contradiction|reflexivity]. }
  destruct s1 as [|c2 s2]; [injection E as <- <-; discriminate|]. destruct (N.eqb_spec c2 47) as [->|N2].
  { destruct (eatLineComment s2) as [q r'] eqn:EL. injection E as <- <-. cbn in K. destruct (exact_line s2 q r' c K EL) as (p & -> & G).
    exists (47 :: 47 :: p). split; auto. intros t'. unfold eat_fun, eatComment. cbn [app]. rewrite !N.eqb_refl, G. reflexivity. }
  destruct (N.eqb_spec c2 42) as [->|N3]; [|injection E as <- <-; discriminate].
  destruct s2 as [|c3 s3]; [injection E as <- <-; discriminate|]. destruct (N.eqb_spec c3 42) as [->|N4].
  - destruct s3 as [|c4 s4]; [injection E as <- <-; discriminate|]. destruct (N.eqb_spec c4 47) as [->|N5].
    + destruct s4 as [|c5 s5]; cbn [read] in E; injection E as <- <-; cbn in K; [discriminate|]. injection K as ->. exists [47; 42; 42; 47]. split; auto.
    + destruct (structuredComment (c4 :: s4) []) as [[q r'] t0] eqn:ES. injection E as <- <-. cbn in K.
      destruct (exact_structured_aux (List.length (c4 :: s4)) [] (c4 :: s4) (q, t0) r' c) as (p & EP & G); [lia|auto|unfold sc_fun; rewrite ES; reflexivity|].
      exists (47 :: 42 :: 42 :: p). split; [cbn; congruence|]. intros t'. specialize (G t'). unfold eat_fun, eatComment. cbn [app].
      change (47 =? 47) with true. change (42 =? 47) with false. change (42 =? 42) with true. cbv iota. unfold sc_fun in G.
      destruct p as [|c' p]; cbn [app] in *; injection EP as -> _.
      * destruct (N.eqb_spec c 47); [contradiction|]. destruct (structuredComment (c :: t') []) as [[q2 r2] t2]. injection G as -> -> ->. reflexivity.
      * destruct (N.eqb_spec c' 47); [contradiction|]. destruct (structuredComment (c' :: p ++ c :: t') []) as [[q2 r2] t2]. injection G as -> -> ->. reflexivity.
  - destruct (eatBlockComment (c3 :: s3)) as [q r'] eqn:EB. injection E as <- <-. cbn in K.
    destruct (exact_block_aux (List.length (c3 :: s3)) (c3 :: s3) q r' c) as (p & EP & G); [lia|auto|auto|].
    exists (47 :: 42 :: p). split; [cbn; congruence|]. intros t'. specialize (G t'). unfold eat_fun, eatComment. cbn [app].
    change (47 =? 47) with true. change (42 =? 47) with false. change (42 =? 42) with true. cbv iota.
    destruct p as [|c' p]; cbn [app] in *; injection EP as -> _.
    * destruct (N.eqb_spec c 42); [contradiction|]. rewrite G. reflexivity.
    * destruct (N.eqb_spec c' 42); [contradiction|]. rewrite G. reflexivity.
Qed.

Lemma exact_skip : forall n sc s x r c, (List.length s <= n)%nat -> eat_key x = Some c -> skip_fun sc s = (x, r) ->
  exists p, s = p ++ c :: r /\ forall t', skip_fun sc (p ++ c :: t') = (x, t').
Proof.
  induction n as [|n IH]; intros sc s x r c HL K E; rewrite skip_fun_unfold in E; destruct (eat_fun sc s) as [[[c1 pd] sc'] r1] eqn:EE.
  - destruct s; [|cbn in HL; lia]. unfold eat_fun in EE. cbn in EE. injection EE as <- <- <- <-. injection E as <- <-. discriminate.
  - assert (s <> []) as HN.
    { intros ->. unfold eat_fun in EE. cbn in EE. injection EE as <- <- <- <-. injection E as <- <-. discriminate. }
    assert (List.length r1 < List.length s)%nat as HR.
    { pose proof (eat_shorter s sc HN). unfold eat_fun in EE. injection EE as _ _ _ <-. lia. }
    destruct c1 as [c1|]; [|injection E as <- <-; cbn in K; destruct pd; discriminate].
    destruct (isspace c1) eqn:ES.
    + destruct (IH sc' r1 x r c) as (p2 & -> & G2); [lia|auto|exact E|]. destruct p2 as [|h1 p2].
      * destruct (local_eat sc s _ c r EE) as (p1 & -> & G1). exists p1. split; auto. intros t'. rewrite skip_fun_unfold, (G1 t'), ES. apply (G2 t').
      * destruct (local_eat sc s _ h1 (p2 ++ c :: r) EE) as (p1 & -> & G1). exists (p1 ++ h1 :: p2). split; [rewrite <- app_assoc; reflexivity|].
        intros t'. rewrite <- app_assoc. cbn [app]. rewrite skip_fun_unfold, G1, ES. apply (G2 t').
    + injection E as <- <-. destruct (exact_eat sc s (Some c1, pd, sc') r1 c K EE) as (p & -> & G). exists p. split; auto. intros t'.
      rewrite skip_fun_unfold, G, ES. reflexivity.
Qed.

Lemma eat_none sc s pd sc' r : eat_fun sc s = ((None, pd, sc'), r) -> r = [].
Proof.
  assert (forall n s q, (List.length s <= n)%nat -> eatBlockComment s = (None, q) -> q = []) as HB.
  { induction n as [|n IH]; intros [|c s0] q HL; cbn [List.length eatBlockComment] in *; try lia; [congruence|congruence|].
    destruct (c =? 42); [|apply IH; lia]. destruct s0 as [|d s0]; [congruence|]. destruct (d =? 47); [|apply IH; lia]. destruct s0; cbn; congruence. }
  assert (forall n acc s q t, (List.length s <= n)%nat -> structuredComment s acc = (None, q, t) -> q = []) as HS.
  { induction n as [|n IH]; intros acc [|c s0] q t HL; cbn [List.length structuredComment] in *; try lia; [congruence|congruence|].
    destruct (c =? 42); [|apply IH; lia]. destruct s0 as [|d s0]; [congruence|]. destruct (d =? 47); [|apply IH; lia]. destruct s0; cbn; congruence. }
  assert (forall s q, eatLineComment s = (None, q) -> q = []) as HL.
  { induction s0 as [|c s0 IH]; cbn [eatLineComment]; [congruence|]. destruct (c =? 10); [discriminate|apply IH]. }
  unfold eat_fun, eatComment. destruct s as [|c1 s1]; [cbn; congruence|]. destruct (c1 =? 47); [|discriminate]. destruct s1 as [|c2 s2]; [discriminate|].
  destruct (c2 =? 47). { destruct (eatLineComment s2) as [q r'] eqn:E. cbn. intros H. injection H as -> _ _ <-. eauto. }
  destruct (c2 =? 42); [|discriminate]. destruct s2 as [|c3 s3]; [cbn; congruence|]. destruct (c3 =? 42).
  - destruct s3 as [|c4 s4]; [cbn; congruence|]. destruct (c4 =? 47).
    + destruct s4; cbn; congruence.
    + destruct (structuredComment (c4 :: s4) []) as [[q r'] t0] eqn:E. cbn [e_c e_rest e_pend e_sc]. intros H. injection H as -> _ _ <-. eapply HS; [|exact E]. reflexivity.
  - destruct (eatBlockComment (c3 :: s3)) as [q r'] eqn:E. cbn [e_c e_rest e_pend e_sc]. intros H. injection H as -> _ _ <-. eapply HB; [|exact E]. reflexivity.
Qed.

Lemma skip_none : forall n sc s pd sc' r, (List.length s <= n)%nat -> skip_fun sc s = ((None, pd, sc'), r) -> r = [].
Proof.
  induction n as [|n IH]; intros sc s pd sc' r HL E; rewrite skip_fun_unfold in E; destruct (eat_fun sc s) as [[[c1 pd1] sc1] r1] eqn:EE.
  - destruct s; [|cbn in HL; lia]. unfold eat_fun in EE. cbn in EE. injection EE as <- <- <- <-. congruence.
  - destruct c1 as [c1|].
    + destruct (isspace c1); [|discriminate]. apply (IH sc1 r1 pd sc' r); auto.
      assert (s <> []) as HN by (intros ->; unfold eat_fun in EE; cbn in EE; discriminate).
      pose proof (eat_shorter s sc HN). unfold eat_fun in EE. injection EE as _ _ _ <-. lia.
    + injection E as <- <- <-. eapply eat_none; eauto.
Qed.

Theorem local_next : local getNextToken.
Proof.
  intros s x h t E. rewrite getNextToken_eq in E. destruct (skip_fun None s) as [[[c pd] sc] r] eqn:ES.
  destruct sc as [d|].
  - destruct pd.
    + injection E as <- ->. destruct (local_skip None s _ h t ES) as (p & -> & G). exists p. split; auto. intros t'. rewrite getNextToken_eq, G. reflexivity.
    + destruct c as [c|].
      * cbn [unread] in E. injection E as <- -> ->. destruct (exact_skip (List.length s) None s (Some h, false, Some d) t h (le_n _) eq_refl ES) as (p & -> & G). exists p. split; auto.
        intros t'. rewrite getNextToken_eq, G. reflexivity.
      * pose proof (skip_none (List.length s) None s false (Some d) r (le_n _) ES) as ->. discriminate.
  - destruct c as [c|].
    + destruct (local_byte c r x h t E) as (p2 & -> & G2). destruct p2 as [|h1 p2].
      * destruct (local_skip None s _ h t ES) as (p & -> & G). exists p. split; auto. intros t'. rewrite getNextToken_eq, G. apply (G2 t').
      * destruct (local_skip None s _ h1 (p2 ++ h :: t) ES) as (p & -> & G). exists (p ++ h1 :: p2). split; [rewrite <- app_assoc; reflexivity|].
        intros t'. rewrite <- app_assoc, getNextToken_eq. cbn [app]. rewrite G. apply (G2 t').
    + pose proof (skip_none (List.length s) None s pd None r (le_n _) ES) as ->. discriminate.
Qed.
