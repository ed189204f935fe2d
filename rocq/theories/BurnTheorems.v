(* BurnTheorems.v: C115. *)
From Coq Require Import List NArith Lia Bool.
From Coq Require Import ZifyBool ZifyNat ZifyN.
From Verif Require Import BurnModel.
Import ListNotations.
Open Scope N_scope.

(* safe, armed, pulled *)
Inductive tstate := Safe | Armed | Pulled.
Definition code (t : tstate) : N := match t with Safe => 0 | Armed => 1 | Pulled => 2 end.
(* The state is always one of three, which fit Unary(2); arming only moves a safe trigger, pulling only an armed one, and just one of the
   tests holds. *)
Theorem C115_trigger : forall t, code t <= 2 /\ doArm (code t) = code (match t with Safe => Armed | _ => t end) /\
  doPull (code t) = code (match t with Armed => Pulled | _ => t end) /\ doSafe (code t) = code Safe /\
  (isSafe (code t) = true <-> t = Safe) /\ (isArmed (code t) = true <-> t = Armed) /\ (isPulled (code t) = true <-> t = Pulled).
Proof. intros []; cbn; repeat split; congruence || lia || auto. Qed.
Print Assumptions C115_trigger.

(* A burning element fires just if it has recovered and been pulled. Then every armed trigger near is pulled, no other atom and nothing
   else of the triggers changes, and it is safe and has to recover again. *)
Definition pulled_by (a b : atom) : Prop := match a with ATrig 1 c r => b = ATrig 2 c r | _ => b = a end.
Theorem C115_fires : forall t c near, c <= 63 -> let '(s', c', near', f) := burnBehave (code t) c near in
  (f = true <-> c = 63 /\ t = Pulled) /\ (f = true -> s' = code Safe /\ c' = 0 /\ Forall2 pulled_by near near') /\ (f = false -> near' = near).
Proof.
  intros t c near H. unfold burnBehave. destruct (N.ltb_spec c maxCount) as [L|L]; unfold maxCount in L.
  - repeat split; try discriminate; auto. lia.
  - assert (c = 63) as -> by lia. destruct t; cbn [negb isPulled doArm isSafe code N.eqb]; repeat split; try discriminate; auto; try (intros [_ Q]; discriminate); try (intros _).
    induction near as [|a l IH]; constructor; auto. destruct a as [s d r|k]; cbn [pullAtom pulled_by]; [|reflexivity]. unfold doPull, isArmed, cARMED, cSAFE. destruct s as [|[q|q|]]; reflexivity.
Qed.
Print Assumptions C115_fires.
(* Otherwise it recovers by one, or is armed when it has recovered. *)
Theorem C115_recovers : forall t c near, c <= 63 -> ~ (c = 63 /\ t = Pulled) -> burnBehave (code t) c near =
  if c =? 63 then (code (match t with Safe => Armed | _ => t end), c, near, false) else (code t, c + 1, near, false).
Proof.
  intros t c near H HN. unfold burnBehave, maxCount. destruct (N.ltb_spec c 63) as [L|L]; [replace (c =? 63) with false by lia; reflexivity|].
  assert (c = 63) as -> by lia. destruct t; try reflexivity. exfalso; auto.
Qed.
Print Assumptions C115_recovers.

Lemma pulls_code n t : pulls n (code t) = code (match n, t with S _, Armed => Pulled | _, _ => t end).
Proof. destruct n; [destruct t; reflexivity|]. unfold pulls. cbn [Nat.iter nat_rect]. induction n; [destruct t; reflexivity|]. cbn [Nat.iter nat_rect]. rewrite IHn. destruct t; reflexivity. Qed.
Lemma pulls_safe n : pulls n 0 = 0.
Proof. change (pulls n (code Safe) = 0). rewrite pulls_code. destruct n; reflexivity. Qed.
Lemma burns_cons s c p r : burns s c (p :: r) = (let '(s', c', _, f) := burnBehave (pulls p s) c [] in f :: burns s' c' r).
Proof. reflexivity. Qed.
Lemma quiet : forall k c ps, N.of_nat k + c = 63 -> burns 0 c ps = repeat false (min k (List.length ps)) ++ burns 0 63 (skipn k ps).
Proof.
  induction k as [|k IH]; intros c ps H; [cbn [min repeat app skipn]; replace c with 63 by lia; reflexivity|].
  destruct ps as [|p r]; [reflexivity|]. rewrite burns_cons, pulls_safe. unfold burnBehave, maxCount. replace (c <? 63) with true by lia.
  cbn [List.length min repeat app skipn]. f_equal. apply IH. lia.
Qed.
(* After it has fired, an element does not fire for 64 events, however often it is pulled; the next event fires just if it was pulled
   after those. *)
Theorem C115_rests : forall ps p, (List.length ps = 64)%nat -> burns (code Safe) 0 (ps ++ [p]) = repeat false 64 ++ [negb (Nat.eqb p 0)].
Proof.
  intros ps p HL. cbn [code]. rewrite (quiet 63 0) by lia. assert (exists q, skipn 63 ps = [q]) as (q & EQ).
  { assert (List.length (skipn 63 ps) = 1%nat) as E1 by (rewrite skipn_length; lia). destruct (skipn 63 ps) as [|q [|]]; cbn in E1; try lia. eauto. }
  rewrite skipn_app, EQ, app_length, HL. cbn [List.length]. change (min 63 (64 + 1)) with 63%nat. change (63 - 64)%nat with 0%nat. cbn [skipn app].
  rewrite burns_cons, pulls_safe. assert (burnBehave 0 63 [] = (1, 63, [], false)) as -> by reflexivity.
  rewrite burns_cons. change 1 with (code Armed) at 1. rewrite pulls_code. change (repeat false 64) with (repeat false (63 + 1)). rewrite repeat_app, <- app_assoc. f_equal. destruct p; reflexivity.
Qed.
Print Assumptions C115_rests.
(* And one that is armed fires at the first event after it is pulled. *)
Theorem C115_armed : forall k p r, burns (code Armed) 63 (repeat O k ++ S p :: r) = repeat false k ++ true :: burns (code Safe) 0 r.
Proof.
  intros k p r. induction k as [|k IH].
  - cbn [repeat app]. rewrite burns_cons, pulls_code. reflexivity.
  - cbn [repeat app]. rewrite burns_cons, pulls_code. cbn [burnBehave]. change (burnBehave (code Armed) 63 []) with (code Armed, 63, @nil atom, false). cbv iota beta. f_equal. exact IH.
Qed.
Print Assumptions C115_armed.
(* A spark becomes an element that fires at its next event, whether it is pulled or not. *)
Theorem C115_spark : forall n near, let '(s, c) := sparkBehave in s = code Pulled /\ exists near', burnBehave (pulls n s) c near = (code Safe, 0, near', true).
Proof. intros n near. unfold sparkBehave. split; [reflexivity|]. change (doPull (doArm (doSafe cSAFE))) with (code Pulled). rewrite pulls_code. destruct n; eexists; reflexivity. Qed.
Print Assumptions C115_spark.
(* An evaporator leaves what was next to it twice. *)
Theorem C115_evaporates : forall a b, evaporate (a, b) = (b, b).
Proof. reflexivity. Qed.
Print Assumptions C115_evaporates.

Example C115_ex : burnBehave 2 63 [ATrig 1 63 9; ATrig 0 5 9; AOther 4; ATrig 2 63 1] = (0, 0, [ATrig 2 63 9; ATrig 0 5 9; AOther 4; ATrig 2 63 1], true) /\
  burns 0 0 (repeat 3%nat 66) = repeat false 64 ++ [true; false] /\ sparkBehave = (2, 63) /\
  burnBehave 0 63 [ATrig 1 63 9] = (1, 63, [ATrig 1 63 9], false) /\ burnBehave 2 62 [ATrig 1 63 9] = (2, 63, [ATrig 1 63 9], false) /\
  burns 1 63 [0; 0; 1; 5]%nat = [false; false; true; false].
Proof. vm_compute. repeat split. Qed.
