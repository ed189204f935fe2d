(* AnimalTheorems.v: C114. *)
From Coq Require Import List NArith Lia Bool.
From Coq Require Import ZifyBool ZifyNat ZifyN.
From Verif Require Import AnimalModel.
Import ListNotations.
Open Scope N_scope.

Definition others (w : window) : list atom := [w2 w; w3 w; w4 w].
Definition seeds (a : atom) : atom := match a with AEmpty => ARes | _ => a end.
Lemma incr_ok h : h < 127 -> incr h = h + 1.
Proof. unfold incr, maxHunger. lia. Qed.

(* An animal starves at the event that takes its hunger to 127, wherever it stands: it and the empty sites become resources, all else
   stays. *)
Theorem C114_starves : forall e h w, 126 <= h <= 127 -> animalBehave e h w = mkW ARes (seeds (w1 w)) (seeds (w2 w)) (seeds (w3 w)) (seeds (w4 w)).
Proof.
  intros e h w H. unfold animalBehave. assert (incr h = 127) as -> by (unfold incr, maxHunger; lia). cbn [N.eqb maxHunger Pos.eqb].
  unfold seeds, isEmpty. destruct (w1 w), (w2 w), (w3 w), (w4 w); reflexivity.
Qed.
Print Assumptions C114_starves.
(* Before that it grows hungrier by one; a plant next to it is eaten, and nothing but sites 0 and 1 changes. If the plant stills its
   hunger there are two animals of hunger 63, otherwise it moves to where the plant was, less hungry by its energy. *)
Theorem C114_eats : forall e h w, h < 126 -> w1 w = APlant -> let v := animalBehave e h w in others v = others w /\
  (h < e -> w0 v = AAnimal 63 /\ w1 v = AAnimal 63) /\ (e <= h -> w0 v = AEmpty /\ w1 v = AAnimal (h + 1 - e)).
Proof.
  intros e h w H E v. unfold v, animalBehave. rewrite incr_ok, E by lia. replace (h + 1 =? maxHunger) with false by (unfold maxHunger; lia). cbn [isPlant]. unfold less.
  destruct (N.eqb_spec (h + 1 - e) 0) as [Z|Z]; cbn [w0 w1]; (split; [reflexivity|]); split; intros; auto; lia.
Qed.
Print Assumptions C114_eats.
(* Otherwise it moves into an empty site and stays next to anything else, which it leaves alone. *)
Theorem C114_wanders : forall e h w, h < 126 -> w1 w <> APlant -> let v := animalBehave e h w in others v = others w /\
  (w1 w = AEmpty -> w0 v = AEmpty /\ w1 v = AAnimal (h + 1)) /\ (w1 w <> AEmpty -> w0 v = AAnimal (h + 1) /\ w1 v = w1 w).
Proof.
  intros e h w H E v. unfold v, animalBehave. rewrite incr_ok by lia. replace (h + 1 =? maxHunger) with false by (unfold maxHunger; lia).
  destruct (w1 w) eqn:E1; try congruence; cbn [isPlant isEmpty w0 w1 others w2 w3 w4]; repeat split; intros; auto; congruence.
Qed.
Print Assumptions C114_wanders.
(* Whatever happens, an animal alive has a hunger of less than 127. *)
Theorem C114_hunger : forall e h w x, h <= 127 -> (forall k, In (AAnimal k) [w1 w; w2 w; w3 w; w4 w] -> k < 127) ->
  let v := animalBehave e h w in In (AAnimal x) [w0 v; w1 v; w2 v; w3 v; w4 v] -> x < 127.
Proof.
  intros e h w x H HW v HI. destruct (N.le_gt_cases 126 h).
  - unfold v in HI. rewrite C114_starves in HI by lia. cbn [w0 w1 w2 w3 w4 In] in HI. destruct HI as [|[Q|[Q|[Q|[Q|[]]]]]]; [discriminate| | | |]; apply HW; cbn [In]; unfold seeds in Q; [destruct (w1 w)|destruct (w2 w)|destruct (w3 w)|destruct (w4 w)]; try discriminate; auto.
  - assert (others v = others w /\ (forall k, In (AAnimal k) [w0 v; w1 v] -> k < 127)) as [EO HK].
    { assert (w1 w = APlant \/ w1 w <> APlant) as [E|E] by (destruct (w1 w); auto; right; discriminate).
      - destruct (C114_eats e h w ltac:(lia) E) as (A & B & C). split; auto. intros k HK. destruct (N.lt_ge_cases h e) as [L|L]; [destruct (B L) as [B1 B2]|destruct (C L) as [B1 B2]]; fold v in B1, B2; rewrite B1, B2 in HK; destruct HK as [Q|[Q|[]]]; inversion Q; lia.
      - destruct (C114_wanders e h w ltac:(lia) E) as (A & B & C). split; auto. intros k HK. assert (w1 w = AEmpty \/ w1 w <> AEmpty) as [L|L] by (destruct (w1 w); auto; right; discriminate); [destruct (B L) as [B1 B2]|destruct (C L) as [B1 B2]]; fold v in B1, B2; rewrite B1, B2 in HK; destruct HK as [Q|[Q|[]]]; try (inversion Q; lia). apply HW. left; auto. }
    unfold others in EO. injection EO as E2 E3 E4. rewrite E2, E3, E4 in HI. destruct HI as [Q|[Q|Q]]; [apply HK; left; auto|apply HK; right; left; auto|apply HW; right; auto].
Qed.
Print Assumptions C114_hunger.

(* ---- a life ---- *)
Lemma live_step e h n a r : h < 126 -> live e h n (a :: r) = if isPlant a then (if h <? e then Bred (n + 1) else live e (h + 1 - e) (n + 1) r) else live e (h + 1) (n + 1) r.
Proof.
  intros H. cbn [live]. set (w := mkW (AAnimal h) a AEmpty AEmpty AEmpty). assert (a = APlant \/ a <> APlant) as [E|E] by (destruct a; auto; right; discriminate).
  - destruct (C114_eats e h w H E) as (_ & B & C). rewrite E. cbn [isPlant orb]. destruct (N.ltb_spec h e) as [L|L]; [destruct (B L) as [-> ->]|destruct (C L) as [-> ->]]; reflexivity.
  - destruct (C114_wanders e h w H E) as (_ & B & C). replace (isPlant a) with false by (destruct a; congruence || reflexivity). assert (a = AEmpty \/ a <> AEmpty) as [L|L] by (destruct a; auto; right; discriminate).
    + destruct (B L) as [-> ->]. rewrite L. reflexivity.
    + destruct (C L) as [-> ->]. subst w. cbn [w1]. destruct a; congruence || reflexivity.
Qed.
Lemma live_dead e h n a r : 126 <= h <= 127 -> live e h n (a :: r) = Dead (n + 1).
Proof.
  intros H. cbn [live]. rewrite C114_starves by auto. cbn [w0 w1]. destruct a; reflexivity.
Qed.
(* Without plants an animal of hunger h lives to its 127 - h th event, and then it starves; a newborn to its 64th. *)
Theorem C114_unfed : forall e next h n, h <= 126 -> (forall a, In a next -> a <> APlant) ->
  live e h n next = if N.of_nat (List.length next) <? 127 - h then Alive (h + N.of_nat (List.length next)) else Dead (n + (127 - h)).
Proof.
  intros e next. induction next as [|a r IH]; intros h n H HP.
  - cbn [live List.length]. replace (N.of_nat 0 <? 127 - h) with true by lia. f_equal. lia.
  - destruct (N.lt_ge_cases h 126) as [L|L].
    + rewrite live_step by auto. replace (isPlant a) with false by (assert (a <> APlant) by (apply HP; left; auto); destruct a; congruence || reflexivity).
      rewrite IH by (lia || (intros; apply HP; right; auto)). cbn [List.length]. destruct (N.ltb_spec (N.of_nat (List.length r)) (127 - (h + 1))); destruct (N.ltb_spec (N.of_nat (S (List.length r))) (127 - h)); f_equal; lia.
    + rewrite live_dead by lia. cbn [List.length]. destruct (N.ltb_spec (N.of_nat (S (List.length r))) (127 - h)); f_equal; lia.
Qed.
Print Assumptions C114_unfed.
(* An animal lives on as long as hunger plus events stays below 127 after what the plants gave; as long as it neither starves nor breeds
   its hunger is just that. *)
Definition fed (next : list atom) : N := N.of_nat (List.length (filter isPlant next)).
Theorem C114_balance : forall e next h n k, h <= 127 -> live e h n next = Alive k -> k + e * fed next = h + N.of_nat (List.length next).
Proof.
  intros e next. unfold fed. induction next as [|a r IH]; intros h n k H E; [cbn in E; injection E as ->; cbn [List.length filter]; lia|].
  destruct (N.lt_ge_cases h 126) as [L|L]; [|rewrite live_dead in E by lia; discriminate]. rewrite live_step in E by auto. cbn [filter List.length]. destruct (isPlant a) eqn:EP.
  - destruct (N.ltb_spec h e); [discriminate|]. apply IH in E; [|lia]. cbn [List.length]. nia.
  - apply IH in E; [|lia]. lia.
Qed.
Print Assumptions C114_balance.
(* A plant takes resources, which become plants like it, and nothing else. *)
Theorem C114_plant : forall w, let v := plantBehave w in w0 v = w0 w /\ others v = others w /\ w1 v = (match w1 w with ARes => w0 w | a => a end).
Proof. intros [a b c d f]. unfold plantBehave. cbn. destruct b; repeat split; reflexivity. Qed.
Print Assumptions C114_plant.

Example C114_ex : animalBehave 10 126 (mkW (AAnimal 126) APlant AEmpty (AOther 3) AEmpty) = mkW ARes APlant ARes (AOther 3) ARes /\
  animalBehave 10 50 (mkW (AAnimal 50) APlant AEmpty AEmpty AEmpty) = mkW AEmpty (AAnimal 41) AEmpty AEmpty AEmpty /\
  animalBehave 10 9 (mkW (AAnimal 9) APlant AEmpty ARes AEmpty) = mkW (AAnimal 63) (AAnimal 63) AEmpty ARes AEmpty /\
  live 10 63 0 (repeat AEmpty 63) = Alive 126 /\ live 10 63 0 (repeat ARes 64) = Dead 64 /\ live 10 63 0 (APlant :: repeat AEmpty 70) = Alive 124.
Proof. vm_compute. repeat split. Qed.
