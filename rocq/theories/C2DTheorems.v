(* C2DTheorems.v: C100. *)
From Coq Require Import List NArith ZArith Lia Bool.
From Coq Require Import ZifyBool ZifyNat ZifyN.
From Verif Require Import Base BitVec UTypeModel AtomModel AtomSpec PrimModel PrimSpec PrimProofs ArithModel ArithProofs StdNumModel StdNumProofs C2DModel C2DSpec.
Import ListNotations.
Open Scope Z_scope.

Lemma pw_split n : 1 <= n -> 2 ^ n = 2 * 2 ^ (n - 1).
Proof. intros H. replace n with (Z.succ (n - 1)) at 1 by lia. rewrite Z.pow_succ_r by lia. reflexivity. Qed.
Lemma pw_le a b : 0 <= a <= b -> 2 ^ a <= 2 ^ b.
Proof. intros H. apply Z.pow_le_mono_r; lia. Qed.
Lemma pw_pos a : 0 <= a -> 1 <= 2 ^ a.
Proof. intros H. apply (pw_le 0 a). lia. Qed.
Definition cl (w z : Z) : Z := Z.max (- 2 ^ (w - 1)) (Z.min (2 ^ (w - 1) - 1) z).
Lemma clampI w z : clamp EInt w z = cl w z.
Proof. reflexivity. Qed.
Lemma cl_ok w z : 1 <= w -> coord_ok w (cl w z).
Proof. intros H. unfold coord_ok, cl. pose proof (pw_pos (w - 1)). lia. Qed.
Lemma cl_in w z : coord_ok w z -> cl w z = z.
Proof. unfold coord_ok, cl. lia. Qed.
Lemma cl_cl w w' z : 1 <= w <= w' -> cl w (cl w' z) = cl w z.
Proof. intros H. unfold cl. pose proof (pw_le (w - 1) (w' - 1)). pose proof (pw_pos (w - 1)). lia. Qed.
Lemma ok_mono w w' z : 1 <= w <= w' -> coord_ok w z -> coord_ok w' z.
Proof. intros H. unfold coord_ok. pose proof (pw_le (w - 1) (w' - 1)). lia. Qed.
Lemma cl_nearest w z : 1 <= w -> nearest w z (cl w z).
Proof. intros H. split; [apply cl_ok; auto|]. intros r' Hr. unfold coord_ok, cl in *. pose proof (pw_pos (w - 1)). lia. Qed.
Lemma nearest_cl w z r : 1 <= w -> nearest w z r -> r = cl w z.
Proof. intros H [H1 H2]. destruct (H2 (cl w z) (cl_ok w z H)) as [E|E]; auto. destruct (cl_nearest w z H) as [_ H3]. destruct (H3 r H1) as [E'|E']; auto. lia. Qed.

Section W.
Variable w : Z.
Hypothesis Hw : 1 <= w <= 32.

Lemma toCoord_cl e n z : toCoord w (mkNum e n z) = cl w z.
Proof. reflexivity. Qed.
Lemma make_cl a b : coord_ok w a -> coord_ok w b -> make w (Crd w a) (Crd w b) = mkP a b.
Proof.
  intros HA HB. unfold make, set, toInt, to, Crd, I. cbn [n_v]. cbn [n_v]. change (mkP (cl w (cl 32 a)) (cl w (cl 32 b)) = mkP a b). rewrite !cl_cl by lia. rewrite !cl_in by auto. reflexivity.
Qed.
Lemma opsize_w op : isDivision op = false -> w <= opsize op w w 32 <= 32.
Proof. intros HD. unfold opsize, atmost. destruct op; try discriminate; match goal with |- context [?a >=? 32] => destruct (Z.geb_spec a 32) end; lia. Qed.
Lemma op_cl op a b : isDivision op = false -> exists s, w <= s <= 32 /\ binop op (Crd w a) (Crd w b) = Some (mkNum EInt s (cl s (apply_op op a b))) /\ s = opsize op w w 32.
Proof. intros HD. exists (opsize op w w 32). split; [apply opsize_w; auto|]. split; auto. unfold Crd, I. rewrite binop_same by (auto; lia). reflexivity. Qed.
Lemma op_div a b : b <> 0 -> binop Divide (Crd w a) (Crd w b) = Some (mkNum EInt w (cl w (Z.quot a b))).
Proof. intros HB. unfold Crd, I. rewrite binop_div by (auto; lia). rewrite !clampI. rewrite Z.max_id, cl_cl by lia. reflexivity. Qed.
Lemma op_div0 a : binop Divide (Crd w a) (Crd w 0) = None.
Proof. unfold binop. destruct (calcNodeType Divide (tyOf (Crd w a)) (tyOf (Crd w 0))); reflexivity. Qed.
Lemma neg_ok a : coord_ok w a -> exists x, neg (toInt (Crd w a)) = Some x /\ toCoord w x = cl w (- a).
Proof.
  intros HA. unfold neg, toInt, to, Crd, I, tyOf. cbn [n_e n_w n_v]. assert (minusType (prim EInt 32 (-1)) = Some (prim EInt 32 (-1))) as -> by reflexivity. cbn [bind ty_enum ty_bits prim]. eexists. split; [reflexivity|]. change (cl w (cl 32 (- cl 32 a)) = cl w (- a)). rewrite (cl_in 32 a) by (apply (ok_mono w); auto; lia). apply cl_cl. lia.
Qed.

(* ---- the operators that give a point ---- *)
Lemma pointwise_ok op a b : isDivision op = false -> pointwise w op a b = Some (mkP (cl w (apply_op op (px a) (px b))) (cl w (apply_op op (py a) (py b)))).
Proof.
  intros HD. unfold pointwise. destruct (op_cl op (px a) (px b) HD) as (s & Hs & -> & _). destruct (op_cl op (py a) (py b) HD) as (s' & Hs' & -> & _). cbn [bind].
  rewrite !toCoord_cl. rewrite !cl_cl by lia. rewrite make_cl by (apply cl_ok; lia). reflexivity.
Qed.
Lemma scalar_ok op a k : byScalar w op a k = pointwise w op a (mkP k k).
Proof. reflexivity. Qed.
Lemma divide_ok a b : pointwise w Divide a b =
  if (px b =? 0) || (py b =? 0) then None else Some (mkP (cl w (Z.quot (px a) (px b))) (cl w (Z.quot (py a) (py b)))).
Proof.
  unfold pointwise. destruct (Z.eqb_spec (px b) 0) as [E|E]; cbn [orb].
  - rewrite E, op_div0. reflexivity.
  - rewrite (op_div _ _ E). cbn [bind]. destruct (Z.eqb_spec (py b) 0) as [E'|E'].
    + rewrite E', op_div0. reflexivity.
    + rewrite (op_div _ _ E'). cbn [bind]. rewrite !toCoord_cl. rewrite !cl_cl by lia. rewrite make_cl by (apply cl_ok; lia). reflexivity.
Qed.
Lemma negate_ok a : point_ok w a -> negate w a = Some (mkP (cl w (- px a)) (cl w (- py a))).
Proof.
  intros [HX HY]. unfold negate. destruct (neg_ok _ HX) as (x & -> & Ex). destruct (neg_ok _ HY) as (y & -> & Ey). cbn [bind]. rewrite Ex, Ey, make_cl by (apply cl_ok; lia). reflexivity.
Qed.
Lemma absc_ok a : coord_ok w a -> absc w a = Some (cl w (Z.abs a)).
Proof.
  intros HA. unfold absc. destruct (Z.ltb_spec a 0).
  - destruct (neg_ok _ HA) as (x & -> & Ex). cbn [bind]. rewrite Ex. do 2 f_equal. lia.
  - rewrite cl_in; [f_equal; lia|]. unfold coord_ok in *. lia.
Qed.
Lemma abs_ok a : point_ok w a -> abs w a = Some (mkP (cl w (Z.abs (px a))) (cl w (Z.abs (py a)))).
Proof. intros [HX HY]. unfold abs. rewrite !absc_ok by auto. reflexivity. Qed.

(* ---- measures ---- *)
Definition top : Z := 2 ^ (w - 1) - 1.
Lemma cl_nonneg z : 0 <= z -> cl w z = Z.min top z.
Proof. intros H. unfold cl, top. pose proof (pw_pos (w - 1)). lia. Qed.
Lemma diffc_ok a b : diffc w a b = Some (Z.min top (Z.abs (a - b))).
Proof.
  unfold diffc. destruct (Z.geb_spec a b).
  - destruct (op_cl Subtract a b eq_refl) as (s & Hs & -> & _). cbn [bind apply_op]. rewrite toCoord_cl, cl_cl by lia. rewrite cl_nonneg by lia. do 2 f_equal. lia.
  - destruct (op_cl Subtract b a eq_refl) as (s & Hs & -> & _). cbn [bind apply_op]. rewrite toCoord_cl, cl_cl by lia. rewrite cl_nonneg by lia. do 2 f_equal. lia.
Qed.
Definition word_top : Z := 2 ^ 31 - 1.
Lemma top_word : 0 <= top <= word_top.
Proof. unfold top, word_top. pose proof (pw_pos (w - 1)). pose proof (pw_le (w - 1) 31). lia. Qed.
Lemma manh_ok a b : manhattanDistance w a b = Some (Z.min word_top (Z.min top (Z.abs (px a - px b)) + Z.min top (Z.abs (py a - py b)))).
Proof.
  unfold manhattanDistance, absDiff. rewrite !diffc_ok. cbn [bind px py]. set (u := Z.min top (Z.abs (px a - px b))). set (v := Z.min top (Z.abs (py a - py b))).
  pose proof top_word. assert (0 <= u <= top) as Hu by (unfold u; lia). assert (0 <= v <= top) as Hv by (unfold v; lia).
  destruct (op_cl Add u v eq_refl) as (s & Hs & -> & Es). cbn [bind apply_op]. f_equal. unfold toUnsigned, to. cbn [n_v]. unfold clamp. cbn [minof maxof].
  assert (s = Z.min 32 (w + 1)) as E by (rewrite Es; unfold opsize, atmost; destruct (Z.geb_spec (Z.max w w + 1) 32); lia).
  assert (2 ^ w = 2 * 2 ^ (w - 1)) as HS by (apply pw_split; lia). unfold top, word_top, cl in *. change (2 ^ 32) with (2 * 2 ^ 31). destruct (Z.eq_dec w 32) as [->|N].
  - rewrite E. change (Z.min 32 (32 + 1) - 1) with 31. lia.
  - rewrite E. replace (Z.min 32 (w + 1) - 1) with w by lia. pose proof (pw_le w 31 ltac:(lia)). lia.
Qed.
End W.

Lemma mul_bound w a b : 1 <= w -> coord_ok w a -> coord_ok w b -> - 2 ^ (2 * w - 2) <= a * b <= 2 ^ (2 * w - 2).
Proof.
  intros H HA HB. unfold coord_ok in *. replace (2 * w - 2) with ((w - 1) + (w - 1)) by lia. rewrite Z.pow_add_r by lia. nia.
Qed.
Lemma dot_ok w a b : 1 <= w <= 16 -> point_ok w a -> point_ok w b -> dot w a b = Some (cl 32 (px a * px b + py a * py b)).
Proof.
  intros Hw [A1 A2] [B1 B2]. unfold dot. destruct (op_cl w ltac:(lia) Multiply (px a) (px b) eq_refl) as (s & Hs & -> & Es). destruct (op_cl w ltac:(lia) Multiply (py a) (py b) eq_refl) as (s' & Hs' & -> & Es'). rewrite <- Es in Es'. subst s'.
  assert (s = 2 * w) as E by (rewrite Es; unfold opsize, atmost; destruct (Z.geb_spec (w + w) 32); lia). rewrite E in *. clear s E Es. cbn [bind apply_op].
  pose proof (mul_bound w _ _ ltac:(lia) A1 B1) as M1. pose proof (mul_bound w _ _ ltac:(lia) A2 B2) as M2.
  assert (2 ^ (2 * w - 1) = 2 * 2 ^ (2 * w - 2)) as P1 by (rewrite (pw_split (2 * w - 1)) by lia; f_equal; f_equal; lia). pose proof (pw_pos (2 * w - 2) ltac:(lia)).
  rewrite !(cl_in (2 * w)) by (unfold coord_ok; lia). rewrite binop_same by (auto; lia). cbn [bind apply_op]. f_equal. unfold toInt, to. cbn [n_v]. rewrite !clampI.
  set (s := opsize Add (2 * w) (2 * w) 32). assert (s = Z.min 32 (2 * w + 1)) as E by (unfold s, opsize, atmost; destruct (Z.geb_spec (Z.max (2 * w) (2 * w) + 1) 32); lia).
  destruct (Z.eq_dec w 16) as [->|N].
  - replace s with 32 by lia. rewrite cl_cl by lia. reflexivity.
  - replace s with (2 * w + 1) by lia. rewrite (cl_in (2 * w + 1)); [reflexivity|]. unfold coord_ok. replace (2 * w + 1 - 1) with (2 * w) by lia. pose proof (pw_split (2 * w) ltac:(lia)). lia.
Qed.
Lemma sq_len_ok w a : 1 <= w <= 16 -> point_ok w a -> euclideanSquaredLength w a = Some (Z.min (2 ^ 31 - 1) (px a * px a + py a * py a)).
Proof.
  intros Hw HA. unfold euclideanSquaredLength. rewrite dot_ok by auto. cbn [bind]. f_equal. unfold toUnsigned, to, I. cbn [n_v]. unfold clamp, cl. cbn [minof maxof]. change (2 ^ 32) with (2 * 2 ^ 31). change (2 ^ (32 - 1)) with (2 ^ 31). nia.
Qed.

Lemma tri1 T a b c : 0 <= T -> Z.min T (Z.abs (a - c)) <= Z.min T (Z.abs (a - b)) + Z.min T (Z.abs (b - c)).
Proof. lia. Qed.
Lemma zero1 T M u v : 1 <= T <= M -> 0 <= u -> 0 <= v -> Z.min M (Z.min T u + Z.min T v) = 0 -> u = 0 /\ v = 0.
Proof. lia. Qed.
Lemma metric T M a b c : 1 <= T <= M -> forall P Q R : Prop, (P -> Z.abs (px a - px b) <= T) -> (Q -> Z.abs (py a - py b) <= T) ->
  (R -> Z.abs (px a - px b) + Z.abs (py a - py b) <= M) ->
  let d p q := Z.min M (Z.min T (Z.abs (px p - px q)) + Z.min T (Z.abs (py p - py q))) in
  0 <= d a b /\ d a b = d b a /\ d a c <= d a b + d b c /\ (d a b = 0 <-> a = b) /\ d a b <= Z.abs (px a - px b) + Z.abs (py a - py b) /\
  (P -> Q -> R -> d a b = Z.abs (px a - px b) + Z.abs (py a - py b)).
Proof.
  intros HT P Q R HP HQ HR d. unfold d. destruct a as [ax ay], b as [bx by_], c as [cx cy]. cbn [px py] in *.
  split; [clear - HT; lia|]. assert (forall x y, Z.abs (x - y) = Z.abs (y - x)) as HC by (clear; lia). split; [rewrite (HC ax bx), (HC ay by_); reflexivity|]. clear HC.
  split. { pose proof (tri1 T ax bx cx ltac:(lia)) as X. pose proof (tri1 T ay by_ cy ltac:(lia)) as Y. clear HP HQ HR d. assert (forall z, 0 <= Z.min T (Z.abs z)) as N by (clear - HT; lia). revert X Y. generalize (N (ax - bx)), (N (ay - by_)), (N (bx - cx)), (N (by_ - cy)). clear N. generalize (Z.min T (Z.abs (ax - cx))), (Z.min T (Z.abs (ax - bx))), (Z.min T (Z.abs (bx - cx))), (Z.min T (Z.abs (ay - cy))), (Z.min T (Z.abs (ay - by_))), (Z.min T (Z.abs (by_ - cy))). clear - HT. lia. }
  clear d. split. { clear HP HQ HR. split; intros E; [destruct (zero1 T M _ _ HT (Z.abs_nonneg _) (Z.abs_nonneg _) E); f_equal; lia|inversion E; subst; rewrite !Z.sub_diag; cbn [Z.abs]; lia]. }
  revert HP HQ HR. generalize (Z.abs_nonneg (ax - bx)), (Z.abs_nonneg (ay - by_)). generalize (Z.abs (ax - bx)), (Z.abs (ay - by_)). intros u v Hu Hv HP HQ HR. split; [lia|]. intros p q r. specialize (HP p). specialize (HQ q). specialize (HR r). lia.
Qed.

(* ---- C100 ---- *)
(* adding, subtracting and multiplying points, or a point and a number, gives the point closest to the exact result *)
Theorem C100_arithmetic : forall w op a b k, 1 <= w <= 32 -> isDivision op = false ->
  (exists r, pointwise w op a b = Some r /\ nearest_point w (apply_op op (px a) (px b)) (apply_op op (py a) (py b)) r) /\
  (exists r, byScalar w op a k = Some r /\ nearest_point w (apply_op op (px a) k) (apply_op op (py a) k) r).
Proof.
  intros w op a b k Hw HD. rewrite scalar_ok. rewrite !pointwise_ok by auto. split; eexists; (split; [reflexivity|]); split; cbn [px py]; apply cl_nearest; lia.
Qed.
(* a division fails exactly if it is by zero in one of the coordinates *)
Theorem C100_divide : forall w a b, 1 <= w <= 32 ->
  (pointwise w Divide a b = None <-> px b = 0 \/ py b = 0) /\
  (forall r, pointwise w Divide a b = Some r -> nearest_point w (Z.quot (px a) (px b)) (Z.quot (py a) (py b)) r) /\
  (forall k, byScalar w Divide a k = None <-> k = 0) /\
  (forall k r, byScalar w Divide a k = Some r -> nearest_point w (Z.quot (px a) k) (Z.quot (py a) k) r).
Proof.
  assert (forall w a b, 1 <= w <= 32 -> (pointwise w Divide a b = None <-> px b = 0 \/ py b = 0) /\
    (forall r, pointwise w Divide a b = Some r -> nearest_point w (Z.quot (px a) (px b)) (Z.quot (py a) (py b)) r)) as H.
  { intros w a b Hw. rewrite divide_ok by auto. destruct (Z.eqb_spec (px b) 0), (Z.eqb_spec (py b) 0); cbn [orb]; (split; [split; intros; auto; try discriminate; try tauto|intros r E; inversion E; split; cbn [px py]; apply cl_nearest; lia]). }
  intros w a b Hw. destruct (H w a b Hw) as [H1 H2]. split; [exact H1|]. split; [exact H2|]. split.
  - intros k. rewrite scalar_ok. destruct (H w a (mkP k k) Hw) as [H3 _]. rewrite H3. cbn [px py]. tauto.
  - intros k r. rewrite scalar_ok. apply (H w a (mkP k k) Hw).
Qed.
(* the negative and the absolute value *)
Theorem C100_signs : forall w a, 1 <= w <= 32 -> point_ok w a ->
  (exists r, negate w a = Some r /\ nearest_point w (- px a) (- py a) r) /\ (exists r, abs w a = Some r /\ nearest_point w (Z.abs (px a)) (Z.abs (py a)) r).
Proof.
  intros w a Hw HA. rewrite negate_ok, abs_ok by auto. split; eexists; (split; [reflexivity|]); split; cbn [px py]; apply cl_nearest; lia.
Qed.
(* the Manhattan distance is a distance, and the true one unless a difference is beyond the largest coordinate *)
Theorem C100_manhattan : forall w a b c, 2 <= w <= 32 -> exists dab dba dbc dac,
  manhattanDistance w a b = Some dab /\ manhattanDistance w b a = Some dba /\ manhattanDistance w b c = Some dbc /\ manhattanDistance w a c = Some dac /\
  0 <= dab /\ dab = dba /\ dac <= dab + dbc /\ (dab = 0 <-> a = b) /\
  dab <= Z.abs (px a - px b) + Z.abs (py a - py b) /\
  (coord_ok w (Z.abs (px a - px b)) -> coord_ok w (Z.abs (py a - py b)) -> Z.abs (px a - px b) + Z.abs (py a - py b) < 2 ^ 31 ->
   dab = Z.abs (px a - px b) + Z.abs (py a - py b)).
Proof.
  intros w a b c Hw. rewrite !manh_ok by lia. pose proof (top_word w ltac:(lia)) as HT.
  assert (1 <= top w) as H1. { unfold top. pose proof (pw_le 1 (w - 1) ltac:(lia)). change (2 ^ 1) with 2 in H. lia. }
  do 4 eexists. do 4 (split; [reflexivity|]). apply (metric (top w) word_top); [lia|unfold top, coord_ok; intros; lia|unfold top, coord_ok; intros; lia|unfold word_top; intros; lia].
Qed.
Theorem C100_length : forall w a, 1 <= w <= 32 -> length w a = manhattanDistance w a (mkP 0 0) /\
  (coord_ok w (Z.abs (px a)) -> coord_ok w (Z.abs (py a)) -> Z.abs (px a) + Z.abs (py a) < 2 ^ 31 -> length w a = Some (Z.abs (px a) + Z.abs (py a))).
Proof.
  intros w a Hw. unfold length. rewrite !manh_ok by lia. cbn [px py]. split; [f_equal; lia|]. intros H1 H2 H3. f_equal. pose proof (top_word w ltac:(lia)) as HT. unfold word_top, top, coord_ok in *. change (2 ^ 31) with 2147483648 in *. lia.
Qed.
(* the product and the squares, for coordinates of at most 16 bits (C2D): exact up to the largest Int *)
Theorem C100_dot_partial : forall w a b, 1 <= w <= 16 -> point_ok w a -> point_ok w b ->
  (exists d, dot w a b = Some d /\ nearest 32 (px a * px b + py a * py b) d) /\
  (exists d, euclideanSquaredLength w a = Some d /\ nearest 32 (px a * px a + py a * py a) d) /\
  (coord_ok w (px a - px b) -> coord_ok w (py a - py b) ->
   exists d, euclideanSquaredDistance w a b = Some d /\ nearest 32 ((px a - px b) * (px a - px b) + (py a - py b) * (py a - py b)) d).
Proof.
  intros w a b Hw HA HB. assert (forall z, 0 <= z -> nearest 32 z (Z.min (2 ^ 31 - 1) z)) as HN.
  { intros z Hz. replace (Z.min (2 ^ 31 - 1) z) with (cl 32 z) by (unfold cl; change (2 ^ (32 - 1)) with (2 ^ 31); lia). apply cl_nearest. lia. }
  split; [rewrite dot_ok by auto; eexists; split; [reflexivity|apply cl_nearest; lia]|]. split.
  - rewrite sq_len_ok by auto. eexists. split; [reflexivity|]. apply HN. apply Z.add_nonneg_nonneg; apply Z.square_nonneg.
  - intros H1 H2. unfold euclideanSquaredDistance. rewrite pointwise_ok by (auto; lia). cbn [bind apply_op]. rewrite !cl_in by auto. rewrite sq_len_ok; [|lia|split; auto]. eexists. split; [reflexivity|]. cbn [px py]. apply HN. apply Z.add_nonneg_nonneg; apply Z.square_nonneg.
Qed.
(* points far apart: the square of the distance depends on the direction in which it is measured *)
Theorem C100_square_refuted : exists a b, point_ok 16 a /\ point_ok 16 b /\ euclideanSquaredDistance 16 a b <> euclideanSquaredDistance 16 b a.
Proof. exists (mkP (-32768) 0), (mkP 1 0). repeat split; vm_compute; try discriminate; auto. Qed.
(* wide coordinates: the product of two points can have the wrong sign *)
Theorem C100_dot_refuted : exists a b d, point_ok 17 a /\ point_ok 17 b /\ dot 17 a b = Some d /\ d < 0 /\ 0 < px a * px b + py a * py b < 2 ^ 31.
Proof. exists (mkP (-65536) 65535), (mkP (-65536) (-65536)), (-1). repeat split; vm_compute; try discriminate; auto. Qed.
(* one bit: two points at distance 0 *)
Theorem C100_onebit_refuted : exists a b, point_ok 1 a /\ point_ok 1 b /\ a <> b /\ manhattanDistance 1 a b = Some 0.
Proof. exists (mkP 0 0), (mkP (-1) 0). repeat split; vm_compute; try discriminate; auto. Qed.
(* the area of the rectangle between the point and the origin *)
Theorem C100_area : forall w a, 1 <= w <= 32 -> point_ok w a -> coord_ok w (Z.abs (px a)) -> coord_ok w (Z.abs (py a)) ->
  exists r, area w a = Some r /\ nearest 32 (Z.abs (px a * py a)) r.
Proof.
  intros w a Hw HA H1 H2. unfold area. rewrite abs_ok by auto. cbn [bind px py]. rewrite !cl_in by auto. destruct (op_cl w ltac:(lia) Multiply (Z.abs (px a)) (Z.abs (py a)) eq_refl) as (s & Hs & -> & Es). cbn [bind apply_op].
  eexists. split; [reflexivity|]. rewrite Z.abs_mul. unfold toUnsigned, to. cbn [n_v]. set (z := Z.abs (px a) * Z.abs (py a)). assert (0 <= z) as Hz by (unfold z; nia).
  assert (s = Z.min 32 (2 * w)) as E by (rewrite Es; unfold opsize, atmost; destruct (Z.geb_spec (w + w) 32); lia).
  assert (cl s z = cl 32 z) as ->.
  { rewrite E. destruct (Z.le_gt_cases 16 w); [replace (Z.min 32 (2 * w)) with 32 by lia; reflexivity|]. replace (Z.min 32 (2 * w)) with (2 * w) by lia.
    pose proof (mul_bound w _ _ ltac:(lia) H1 H2) as HM. fold z in HM. assert (2 ^ (2 * w - 1) = 2 * 2 ^ (2 * w - 2)) as P1 by (rewrite (pw_split (2 * w - 1)) by lia; f_equal; f_equal; lia). pose proof (pw_pos (2 * w - 2) ltac:(lia)).
    assert (coord_ok (2 * w) z) as HC by (unfold coord_ok; lia). rewrite (cl_in (2 * w)) by auto. symmetry. apply cl_in. apply (ok_mono (2 * w)); [lia|auto]. }
  pose proof (cl_nearest 32 z ltac:(lia)) as HN. replace (clamp EUnsigned 32 (cl 32 z)) with (cl 32 z); auto. unfold clamp, cl. cbn [minof maxof]. change (2 ^ 32) with (2 * 2 ^ 31). change (2 ^ (32 - 1)) with (2 ^ 31). lia.
Qed.
(* the smallest and largest coordinates, the rectangle that a point is brought into, and the one that it spans *)
Theorem C100_bounds : forall a b, let lo := pmin a b in let hi := pmax a b in
  px lo = Z.min (px a) (px b) /\ py lo = Z.min (py a) (py b) /\ px hi = Z.max (px a) (px b) /\ py hi = Z.max (py a) (py b).
Proof. intros a b lo hi. unfold lo, hi, pmin, pmax. cbn [px py]. repeat split; match goal with |- (if ?c then _ else _) = _ => destruct c eqn:E end; lia. Qed.
Theorem C100_clamp : forall a below above, px below <= px above -> py below <= py above ->
  let r := pclamp a below above in (px below <= px r <= px above) /\ (py below <= py r <= py above) /\
  (px below <= px a <= px above -> px r = px a) /\ (py below <= py a <= py above -> py r = py a) /\
  (forall z, px below <= z <= px above -> Z.abs (px a - px r) <= Z.abs (px a - z)) /\ (forall z, py below <= z <= py above -> Z.abs (py a - py r) <= Z.abs (py a - z)).
Proof.
  intros a l h H1 H2 r. unfold r, pclamp. destruct (C100_bounds a l) as (_ & _ & E1 & E2). destruct (C100_bounds (pmax a l) h) as (E3 & E4 & _ & _). rewrite E3, E4, E1, E2. repeat split; intros; lia.
Qed.
Theorem C100_contains : forall w a b, 1 <= w <= 32 -> point_ok w a -> point_ok w b ->
  (contains w a b = true <-> 0 <= px b < px a /\ 0 <= py b < py a) /\ minc w a = Z.min (px a) (py a) /\ maxc w a = Z.max (px a) (py a).
Proof.
  intros w a b Hw [A1 A2] [B1 B2]. assert (forall z, coord_ok w z -> n_v (toInt (Crd w z)) = z) as E by (intros z Hz; unfold toInt, to, Crd, I; cbn [n_v]; rewrite clampI, cl_in; auto; apply (ok_mono w); auto; lia).
  split; [|split].
  - unfold contains, getX, getY. rewrite !E by auto. destruct ((px b <? 0) || (px b >=? px a)) eqn:E1; [split; [discriminate|lia]|]. destruct ((py b <? 0) || (py b >=? py a)) eqn:E2; [split; [discriminate|lia]|]. split; auto. lia.
  - unfold minc. rewrite E by (destruct (px a <? py a); auto). destruct (Z.ltb_spec (px a) (py a)); lia.
  - unfold maxc. rewrite E by (destruct (px a >? py a); auto). destruct (px a >? py a) eqn:E1; lia.
Qed.
(* setting one coordinate, and taking one from another point *)
Theorem C100_take : forall w a b c z, 1 <= w <= 32 ->
  take a b c = mkP (px b) (py c) /\ takex a b = mkP (px b) (py a) /\ takey a b = mkP (px a) (py b) /\
  nearest w z (px (setX w a z)) /\ py (setX w a z) = py a /\ nearest w z (py (setY w a z)) /\ px (setY w a z) = px a /\
  (equals a b = true <-> a = b) /\ (isOrigin a = true <-> a = mkP 0 0).
Proof.
  intros w a b c z Hw. split; [reflexivity|]. split; [reflexivity|]. split; [reflexivity|]. split; [apply cl_nearest; lia|]. split; [reflexivity|]. split; [apply cl_nearest; lia|]. split; [reflexivity|].
  destruct a as [ax ay], b as [bx by_]. unfold equals, isOrigin. cbn [px py]. split; split; intros H; try (f_equal; lia); inversion H; lia.
Qed.
(* the eight directions: the points around the origin, each once, opposite directions being opposite points; the corner in a direction is
   the point of length 4 that lies that way *)
Lemma lit_ok w x y : 1 <= w <= 32 -> coord_ok w x -> coord_ok w y -> lit w x y = mkP x y.
Proof. intros Hw HX HY. unfold lit, make, set, toInt, to, I. cbn [n_v]. change (mkP (cl w (cl 32 x)) (cl w (cl 32 y)) = mkP x y). rewrite !cl_cl by lia. rewrite !cl_in by auto. reflexivity. Qed.
Lemma small w z : 4 <= w -> -4 <= z <= 4 -> coord_ok w z.
Proof. intros Hw Hz. unfold coord_ok. pose proof (pw_le 3 (w - 1) ltac:(lia)). change (2 ^ 3) with 8 in H. lia. Qed.
Lemma small2 w z : 2 <= w -> -1 <= z <= 1 -> coord_ok w z.
Proof. intros Hw Hz. unfold coord_ok. pose proof (pw_le 1 (w - 1) ltac:(lia)). change (2 ^ 1) with 2 in H. lia. Qed.
Lemma dirs d : 0 <= d < 8 -> d = 0 \/ d = 1 \/ d = 2 \/ d = 3 \/ d = 4 \/ d = 5 \/ d = 6 \/ d = 7.
Proof. lia. Qed.
Ltac each d := let H := fresh in intros H; destruct (dirs d H) as [E|[E|[E|[E|[E|[E|[E|E]]]]]]]; clear H; subst d.
Theorem C100_neighbors : forall w, 2 <= w <= 32 ->
  (forall d, 0 <= d < 8 -> let p := neighbor w d in -1 <= px p <= 1 /\ -1 <= py p <= 1 /\ p <> mkP 0 0) /\
  (forall p, -1 <= px p <= 1 -> -1 <= py p <= 1 -> p <> mkP 0 0 -> exists d, 0 <= d < 8 /\ neighbor w d = p /\ forall d', 0 <= d' < 8 -> neighbor w d' = p -> d' = d) /\
  (forall d, 0 <= d < 8 -> negate w (neighbor w d) = Some (neighbor w ((d + 4) mod 8))).
Proof.
  intros w Hw. assert (forall x y, -1 <= x <= 1 -> -1 <= y <= 1 -> lit w x y = mkP x y) as L by (intros; apply lit_ok; try apply small2; lia).
  split; [|split].
  - intros d. each d; unfold neighbor; cbn [Z.eqb Pos.eqb]; rewrite L by lia; cbn [px py]; repeat split; try lia; discriminate.
  - intros [x y] HX HY HN. cbn [px py] in *.
    assert (forall d d', 0 <= d < 8 -> 0 <= d' < 8 -> neighbor w d' = neighbor w d -> d' = d) as HI.
    { intros d d'. each d; each d'; unfold neighbor; cbn [Z.eqb Pos.eqb]; rewrite !L by lia; intros E; inversion E; reflexivity. }
    assert (exists d, 0 <= d < 8 /\ neighbor w d = mkP x y) as (d & Hd & E).
    { assert (x = -1 \/ x = 0 \/ x = 1) as [-> | [-> | ->]] by lia; assert (y = -1 \/ y = 0 \/ y = 1) as [-> | [-> | ->]] by lia; try congruence;
      [exists 5|exists 6|exists 7|exists 4|exists 0|exists 3|exists 2|exists 1]; (split; [lia|]); unfold neighbor; cbn [Z.eqb Pos.eqb]; apply L; lia. }
    exists d. split; [auto|]. split; [auto|]. intros d' Hd' E'. apply HI; auto. congruence.
  - intros d. each d; unfold neighbor; cbn [Z.eqb Pos.eqb]; rewrite L by lia; (rewrite negate_ok; [|lia|split; cbn [px py]; apply small2; lia]); cbn [px py]; rewrite !cl_in by (apply small2; lia);
      match goal with |- context [(?a + 4) mod 8] => let v := eval compute in ((a + 4) mod 8) in change ((a + 4) mod 8) with v end; cbn [Z.eqb Pos.eqb]; rewrite L by lia; reflexivity.
Qed.
Theorem C100_corners : forall w d, 4 <= w <= 32 -> 0 <= d < 8 -> length w (corner w d) = Some 4 /\
  exists k, 0 < k /\ px (corner w d) = k * px (neighbor w d) /\ py (corner w d) = k * py (neighbor w d).
Proof.
  intros w d Hw. assert (forall x y, -4 <= x <= 4 -> -4 <= y <= 4 -> lit w x y = mkP x y) as L by (intros; apply lit_ok; try apply small; lia).
  each d; unfold corner, neighbor; cbn [Z.eqb Pos.eqb]; rewrite !L by lia; (split; [rewrite (proj2 (C100_length w _ ltac:(lia))); [reflexivity| | |]; cbn [px py]; try (apply small; lia); cbn; lia|cbn [px py]]);
    first [exists 4; lia|exists 2; lia].
Qed.
Print Assumptions C100_arithmetic. Print Assumptions C100_divide. Print Assumptions C100_signs. Print Assumptions C100_manhattan. Print Assumptions C100_length.
Print Assumptions C100_dot_partial. Print Assumptions C100_square_refuted. Print Assumptions C100_dot_refuted. Print Assumptions C100_onebit_refuted. Print Assumptions C100_area.
Print Assumptions C100_bounds. Print Assumptions C100_clamp. Print Assumptions C100_contains. Print Assumptions C100_take. Print Assumptions C100_neighbors. Print Assumptions C100_corners.

Example C100_ex : pointwise 16 Add (mkP 30000 (-5)) (mkP 10000 7) = Some (mkP 32767 2) /\ manhattanDistance 16 (mkP 3 (-4)) (mkP (-1) 2) = Some 10 /\
  euclideanSquaredDistance 16 (mkP 3 (-4)) (mkP (-1) 2) = Some 52 /\ contains 16 (mkP 4 4) (mkP 3 0) = true /\ area 16 (mkP (-3) 4) = Some 12 /\
  pclamp (mkP 9 (-9)) (mkP 0 0) (mkP 5 5) = mkP 5 0 /\ byScalar 16 Divide (mkP (-7) 7) 2 = Some (mkP (-3) 3) /\ point_ok 16 (mkP 3 (-4)).
Proof. repeat split; vm_compute; try discriminate; auto. Qed.
