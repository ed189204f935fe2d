(* MDistTheorems.v: C102. *)
From Coq Require Import String List NArith ZArith Lia Bool.
From Coq Require Import ZifyBool ZifyNat ZifyN.
From Verif Require Import Base LexerModel MDistModel MDistSpec.
Import ListNotations.
Open Scope Z_scope.

Definition upto (n : nat) : list Z := map Z.of_nat (seq 0 n).
Lemma upto_in n z : 0 <= z < Z.of_nat n -> In z (upto n).
Proof. intros H. unfold upto. apply in_map_iff. exists (Z.to_nat z). split; [lia|]. apply in_seq. lia. Qed.
Lemma all2 (n : nat) (f : Z -> Z -> bool) : forallb (fun a => forallb (f a) (upto n)) (upto n) = true -> forall a b, 0 <= a < Z.of_nat n -> 0 <= b < Z.of_nat n -> f a b = true.
Proof. intros H a b Ha Hb. rewrite forallb_forall in H. specialize (H a (upto_in n a Ha)). rewrite forallb_forall in H. apply H, upto_in, Hb. Qed.

(* ---- the sites ---- *)
Theorem C102_sites : (forall x y, In (x, y) sites <-> Z.abs x + Z.abs y <= 4) /\ (forall i j, 0 <= i < j -> j <= 40 -> before (site i) (site j)).
Proof.
  split.
  - intros x y. split.
    + intros H. assert (forallb (fun p => Z.abs (fst p) + Z.abs (snd p) <=? 4) sites = true) as F by (vm_compute; reflexivity). rewrite forallb_forall in F. specialize (F _ H). cbn [fst snd] in F. lia.
    + intros H. assert (forall a b, 0 <= a < 9 -> 0 <= b < 9 -> (negb (Z.abs (a - 4) + Z.abs (b - 4) <=? 4) || existsb (fun p => (fst p =? a - 4) && (snd p =? b - 4)) sites) = true) as F by (apply (all2 9 (fun a b => negb (Z.abs (a - 4) + Z.abs (b - 4) <=? 4) || existsb (fun p => (fst p =? a - 4) && (snd p =? b - 4)) sites)); vm_compute; reflexivity).
      specialize (F (x + 4) (y + 4) ltac:(lia) ltac:(lia)). replace (x + 4 - 4) with x in F by lia. replace (y + 4 - 4) with y in F by lia. apply orb_true_iff in F. destruct F as [F|F]; [lia|]. apply existsb_exists in F. destruct F as ([p q] & HI & E). cbn [fst snd] in E. assert (p = x) by lia. assert (q = y) by lia. subst. exact HI.
  - intros i j Hi Hj.
    pose (bf := fun p q : Z * Z => let d r := Z.abs (fst r) + Z.abs (snd r) in let l r := fst r * fst r + snd r * snd r in
      (d p <? d q) || ((d p =? d q) && ((l p <? l q) || ((l p =? l q) && ((fst p <? fst q) || ((fst p =? fst q) && (snd p <? snd q))))))).
    assert (forall p q, bf p q = true -> before p q) as HB. { intros p q H. unfold bf in H. unfold before. cbv zeta in *. generalize dependent (fst p * fst p + snd p * snd p). generalize dependent (fst q * fst q + snd q * snd q). intros. lia. }
    apply HB. assert (forall a b, 0 <= a < 41 -> 0 <= b < 41 -> (negb (a <? b) || bf (site a) (site b)) = true) as F by (apply (all2 41 (fun a b => negb (a <? b) || bf (site a) (site b))); vm_compute; reflexivity).
    specialize (F i j ltac:(lia) ltac:(lia)). destruct (Z.ltb_spec i j); [exact F|lia].
Qed.
Print Assumptions C102_sites.

(* ---- the literals ---- *)
(* each literal is read by the lexer as the bytes that the model takes it for *)
Theorem C102_literals : forall l, In l (sqrt_literal :: angle_literals) -> getNextToken (34%N :: l ++ [34%N]) = (Tok "DQUOTED_STRING" (Some (map Z.to_N (octals l))), []).
Proof.
  assert (forallb (fun l => match getNextToken (34%N :: l ++ [34%N]) with (Tok "DQUOTED_STRING" (Some b), []) => if list_eq_dec N.eq_dec b (map Z.to_N (octals l)) then true else false | _ => false end) (sqrt_literal :: angle_literals) = true) as F by (vm_compute; reflexivity).
  rewrite forallb_forall in F. intros l Hl. specialize (F l Hl).
  destruct (getNextToken (34%N :: l ++ [34%N])) as [t r]. destruct t as [n o|]; [|discriminate]. 
  repeat match type of F with match ?x with _ => _ end = true => destruct x; try discriminate end. subst. reflexivity.
Qed.
Print Assumptions C102_literals.

(* ---- the angles ---- *)
Definition oppb (a b : Z * Z) : bool := (cross a b =? 0) && (dot a b <? 0) && negb ((fst a =? 0) || (snd a =? 0)).
Lemma oppb_ok a b : oppb a b = true <-> opposite a b /\ ~ on_axis a.
Proof. unfold oppb, opposite, on_axis. generalize (cross a b), (dot a b). intros. lia. Qed.
(* angles do not depend on the lengths *)
Theorem C102_degrees_scale (n : nat) (p u : Z * Z) (c d : Z) : 0 < c -> 0 < d -> full_turns n (c * fst p, c * snd p) (d * fst u, d * snd u) = full_turns n p u.
Proof.
  revert p c. induction n as [|n IH]; intros p c Hc Hd; [reflexivity|]. cbn [full_turns]. assert (forall k q, 0 < k -> upper (k * fst q, k * snd q) = upper q) as HU.
  { intros k q Hk. unfold upper. cbn [fst snd]. f_equal; [|f_equal]; apply eq_true_iff_eq; rewrite ?Z.ltb_lt, ?Z.eqb_eq; nia. }
  assert (turn (c * fst p, c * snd p) (d * fst u, d * snd u) = (c * d * fst (turn p u), c * d * snd (turn p u))) as -> by (unfold turn; cbn [fst snd]; f_equal; ring).
  rewrite IH, (HU c p), (HU (c * d) (turn p u)) by nia. reflexivity.
Qed.
Print Assumptions C102_degrees_scale.

(* the directions that occur, each once *)
Definition prim (u : Z * Z) : Z * Z := let g := Z.gcd (fst u) (snd u) in (fst u / g, snd u / g).
Definition peq (a b : Z * Z) : bool := (fst a =? fst b) && (snd a =? snd b).
Definition between (a b : Z * Z) : Z * Z := (dot a b, Z.abs (cross a b)).
Definition prims : list (Z * Z) :=
  fold_left (fun l u => if existsb (peq u) l then l else u :: l) (flat_map (fun a => map (fun b => prim (between (site a) (site b))) (tl (upto 41))) (tl (upto 41))) [].
Definition memo : list ((Z * Z) * Z) := Eval vm_compute in map (fun u => (u, full_turns 360 (1, 0) u)) prims.
Lemma memo_ok u v : In (u, v) memo -> full_turns 360 (1, 0) u = v.
Proof.
  assert (forallb (fun e => full_turns 360 (1, 0) (fst e) =? snd e) memo = true) as F by (vm_compute; reflexivity). rewrite forallb_forall in F. intros H. specialize (F _ H). apply Z.eqb_eq in F. exact F.
Qed.
Definition look (a b : Z * Z) : option Z :=
  let g := Z.gcd (dot a b) (Z.abs (cross a b)) in
  match find (fun e => (0 <? g) && peq (between a b) (g * fst (fst e), g * snd (fst e))) memo with Some e => Some (snd e) | None => None end.
Lemma look_ok a b v : look a b = Some v -> degrees a b = v.
Proof.
  unfold look, degrees. set (g := Z.gcd (dot a b) (Z.abs (cross a b))). destruct (find _ memo) as [[u w]|] eqn:E; [|discriminate]. intros H. inversion H; subst. apply find_some in E. destruct E as [HI E]. cbn [fst snd] in E. apply andb_true_iff in E. destruct E as [Hg E].
  unfold peq, between in E. cbn [fst snd] in E. apply andb_true_iff in E. destruct E as [E1 E2]. apply Z.eqb_eq in E1. apply Z.eqb_eq in E2. rewrite E1, E2. cbn [snd]. rewrite <- (memo_ok _ _ HI). apply (C102_degrees_scale 360 (1, 0) u 1 g); lia.
Qed.
Lemma looked a b : 1 <= a <= 40 -> 1 <= b <= 40 -> look (site a) (site b) = Some (degrees (site a) (site b)).
Proof.
  intros Ha Hb. pose (f := fun a b => (a =? 0) || (b =? 0) || match look (site a) (site b) with Some _ => true | None => false end). assert (f a b = true) as F by (apply (all2 41 f); [vm_compute; reflexivity|lia..]). unfold f in F. replace ((a =? 0) || (b =? 0)) with false in F by lia. cbn [orb] in F.
  destruct (look (site a) (site b)) as [v|] eqn:E; [|discriminate]. rewrite (look_ok _ _ _ E). reflexivity.
Qed.
Lemma table s1 s2 : 0 <= s1 <= 40 -> 0 <= s2 <= 40 ->
  acuteAngle s1 s2 = Some (if (s1 =? 0) || (s2 =? 0) then 0 else degrees (site s1) (site s2) - (if oppb (site s1) (site s2) then 1 else 0)).
Proof.
  intros H1 H2. pose (f := fun a b => match acuteAngle a b with Some v => if (a =? 0) || (b =? 0) then v =? 0 else match look (site a) (site b) with Some d => v =? d - (if oppb (site a) (site b) then 1 else 0) | None => false end | None => false end).
  assert (f s1 s2 = true) as F by (apply (all2 41 f); [vm_compute; reflexivity|lia..]). unfold f in F. destruct (acuteAngle s1 s2) as [v|]; [|discriminate]. destruct ((s1 =? 0) || (s2 =? 0)) eqn:E0; [apply Z.eqb_eq in F; congruence|].
  rewrite looked in F by lia. apply Z.eqb_eq in F. congruence.
Qed.
(* the whole degrees between the directions of two sites *)
Theorem C102_angle_partial (s1 s2 : Z) : 1 <= s1 <= 40 -> 1 <= s2 <= 40 -> on_axis (site s1) \/ ~ opposite (site s1) (site s2) ->
  acuteAngle s1 s2 = Some (degrees (site s1) (site s2)).
Proof.
  intros H1 H2 HN. rewrite table by lia. replace ((s1 =? 0) || (s2 =? 0)) with false by lia. destruct (oppb (site s1) (site s2)) eqn:E; [apply oppb_ok in E; tauto|]. rewrite Z.sub_0_r. reflexivity.
Qed.
Print Assumptions C102_angle_partial.

(* one degree less in opposite directions that are not along an axis *)
Theorem C102_opposite_refuted : (forall s1 s2, 1 <= s1 <= 40 -> 1 <= s2 <= 40 -> opposite (site s1) (site s2) -> ~ on_axis (site s1) -> acuteAngle s1 s2 = Some 179 /\ degrees (site s1) (site s2) = 180) /\
  exists s1 s2, 1 <= s1 <= 40 /\ 1 <= s2 <= 40 /\ opposite (site s1) (site s2) /\ ~ on_axis (site s1).
Proof.
  split.
  - intros s1 s2 H1 H2 HO HA. assert (oppb (site s1) (site s2) = true) as E by (apply oppb_ok; auto). rewrite table by lia. replace ((s1 =? 0) || (s2 =? 0)) with false by lia. rewrite E.
    assert (degrees (site s1) (site s2) = 180) as ->; [|auto]. unfold degrees. destruct HO as [-> HD]. generalize dependent (dot (site s1) (site s2)). intros d HD. clear - HD. cbn [Z.abs].
    assert (forall n x, 0 < x -> full_turns (2 * n) (x, 0) (d, 0) = Z.of_nat n) as K; [|apply (K 180%nat 1); lia].
    induction n as [|n IH]; intros x Hx; [reflexivity|]. replace (2 * S n)%nat with (S (S (2 * n))) by lia. cbn [full_turns]. unfold turn. cbn [fst snd]. rewrite !Z.mul_0_r, !Z.mul_0_l, !Z.sub_0_r, !Z.add_0_r.
    assert (x * d < 0) as H1 by nia. assert (0 < x * d * d) as H2 by nia. rewrite IH by exact H2. unfold upper. cbn [fst snd]. rewrite (proj2 (Z.ltb_lt 0 (x * d * d)) H2), (proj2 (Z.ltb_ge 0 (x * d))) by lia. rewrite (proj2 (Z.ltb_lt 0 x) Hx). cbn [orb andb negb Z.eqb]. change (0 <? 0) with false. cbn [orb andb negb]. rewrite Nat2Z.inj_succ. lia.
  - exists 5, 8. repeat split; try lia; try (vm_compute; reflexivity). unfold on_axis. vm_compute. intros [H|H]; discriminate.
Qed.
Print Assumptions C102_opposite_refuted.

(* for all sites there is an answer, the same both ways, and no more than half a turn *)
Theorem C102_range (s1 s2 : Z) : 0 <= s1 <= 40 -> 0 <= s2 <= 40 -> exists d, acuteAngle s1 s2 = Some d /\ acuteAngle s2 s1 = Some d /\ 0 <= d <= 180 /\ (s1 = 0 \/ s2 = 0 \/ s1 = s2 -> d = 0).
Proof.
  intros H1 H2. pose (f := fun a b => match acuteAngle a b, acuteAngle b a with Some v, Some w => (v =? w) && (0 <=? v) && (v <=? 180) && (negb ((a =? 0) || (b =? 0) || (a =? b)) || (v =? 0)) | _, _ => false end).
  assert (f s1 s2 = true) as F by (apply (all2 41 f); [vm_compute; reflexivity|lia..]). unfold f in F. destruct (acuteAngle s1 s2) as [v|]; [|discriminate]. destruct (acuteAngle s2 s1) as [w|]; [|discriminate]. exists v. assert (v = w) by lia. subst w. repeat split; auto; lia.
Qed.
Print Assumptions C102_range.

(* clockwise (y goes down): there and back is a full turn; the first half when the second site is clockwise from the first *)
Theorem C102_cw (s1 s2 : Z) : 1 <= s1 <= 40 -> 1 <= s2 <= 40 -> exists a b, angleCW site s1 s2 = Some a /\ angleCW site s2 s1 = Some b /\ 0 <= a < 360 /\
  (0 < cross (site s1) (site s2) -> a = degrees (site s1) (site s2) /\ a < 180) /\ (cross (site s1) (site s2) <> 0 -> a + b = 360) /\
  (cross (site s1) (site s2) = 0 -> a = b /\ (0 < dot (site s1) (site s2) -> a = 0) /\ (dot (site s1) (site s2) < 0 -> a = 180 \/ a = 179)).
Proof.
  intros H1 H2. pose (f := fun x y => (x =? 0) || (y =? 0) || match angleCW site x y, angleCW site y x, look (site x) (site y) with Some a, Some b, Some d => (0 <=? a) && (a <? 360) && (negb (0 <? cross (site x) (site y)) || ((a =? d) && (a <? 180)))
    && ((cross (site x) (site y) =? 0) || (a + b =? 360)) && (negb (cross (site x) (site y) =? 0) || ((a =? b) && (negb (0 <? dot (site x) (site y)) || (a =? 0)) && (negb (dot (site x) (site y) <? 0) || (a =? 180) || (a =? 179)))) | _, _, _ => false end).
  assert (f s1 s2 = true) as F by (apply (all2 41 f); [vm_compute; reflexivity|lia..]). unfold f in F. replace ((s1 =? 0) || (s2 =? 0)) with false in F by lia. cbn [orb] in F. destruct (angleCW site s1 s2) as [a|]; [|discriminate]. destruct (angleCW site s2 s1) as [b|]; [|discriminate].
  rewrite looked in F by auto. exists a, b. generalize dependent (degrees (site s1) (site s2)). generalize dependent (dot (site s1) (site s2)). generalize dependent (cross (site s1) (site s2)). clear f. intros c d e F. split; [reflexivity|]. split; [reflexivity|]. lia.
Qed.
Print Assumptions C102_cw.

(* ---- the square root ---- *)
Theorem C102_sqrt (x : Z) : 0 <= x < 64 -> exists r, sqrt32 x = Some r /\ 0 <= r /\ r * r <= 32 * 32 * x < (r + 1) * (r + 1).
Proof.
  intros H. pose (f := fun a (_ : Z) => match sqrt32 a with Some r => (0 <=? r) && (r * r <=? 1024 * a) && (1024 * a <? (r + 1) * (r + 1)) | None => false end).
  assert (f x 0 = true) as F by (apply (all2 64 f); [vm_compute; reflexivity|lia..]). unfold f in F. destruct (sqrt32 x) as [r|]; [|discriminate]. exists r. split; [auto|]. generalize dependent (r * r). generalize dependent ((r + 1) * (r + 1)). intros. lia.
Qed.
Print Assumptions C102_sqrt.

(* 26 degrees between (-1,0) and (-2,-1); 45, 90, 135, 180 degrees; 32 times the root of 2 is 45 *)
Example C102_ex : acuteAngle 1 13 = Some 26 /\ acuteAngle 4 8 = Some 45 /\ acuteAngle 1 2 = Some 90 /\ acuteAngle 1 8 = Some 135 /\ acuteAngle 1 4 = Some 180 /\
  angleCW site 4 2 = Some 270 /\ sqrt32 2 = Some 45 /\ ~ opposite (site 1) (site 13) /\ acuteAngle 42 1 = None.
Proof. repeat split; try (vm_compute; reflexivity). intros [H _]. vm_compute in H. discriminate. Qed.
