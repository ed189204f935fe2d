(* ColorTheorems.v: C103. *)
From Coq Require Import List NArith ZArith Lia Bool.
From Coq Require Import ZifyBool ZifyNat ZifyN.
From Verif Require Import Base UTypeModel AtomModel PrimModel ArithModel ArithProofs StdNumModel StdNumProofs ColorModel.
Import ListNotations.
Open Scope Z_scope.

(* ---- the specification ---- *)
Definition byte (z : Z) : Prop := 0 <= z <= 255.
Definition color_ok (c : argb) : Prop := byte (ch0 c) /\ byte (ch1 c) /\ byte (ch2 c) /\ byte (ch3 c).
Definition hex (c : argb) : Z := ch0 c * 2 ^ 24 + ch1 c * 2 ^ 16 + ch2 c * 2 ^ 8 + ch3 c.
(* red, green and blue one by one *)
Definition rgb3 (f : Z -> Z -> Z -> Prop) (a b c : argb) : Prop := f (ch1 a) (ch1 b) (ch1 c) /\ f (ch2 a) (ch2 b) (ch2 c) /\ f (ch3 a) (ch3 b) (ch3 c).
Definition rgb2 (f : Z -> Z -> Prop) (a b : argb) : Prop := rgb3 (fun x _ y => f x y) a a b.
Definition white (c : argb) : Prop := ch1 c = 255 /\ ch2 c = 255 /\ ch3 c = 255.
Definition black (c : argb) : Prop := ch1 c = 0 /\ ch2 c = 0 /\ ch3 c = 0.
Fixpoint times (f : argb -> option argb) (n : nat) (c : argb) : option argb :=
  match n with O => Some c | S n => match f c with Some d => times f n d | None => None end end.

Lemma toChan_in e w v : byte v -> toChan (mkNum e w v) = v.
Proof. intros H. unfold toChan, to, byte in *. cbn [n_v]. apply clamp_in. change (minof EUnsigned 8) with 0. change (maxof EUnsigned 8) with 255. lia. Qed.
Lemma bytes (f : Z -> bool) : forallb f (map Z.of_nat (seq 0 256)) = true -> forall z, byte z -> f z = true.
Proof. intros H z Hz. unfold byte in Hz. rewrite forallb_forall in H. apply H. apply in_map_iff. exists (Z.to_nat z). split; [lia|]. apply in_seq. lia. Qed.

(* ---- from numbers ---- *)
Theorem C103_color (n : Z) : 0 <= n < 2 ^ 32 -> color_ok (colorUnsigned n) /\ hex (colorUnsigned n) = n.
Proof.
  intros H. assert (forall s, 0 <= s -> Z.land (Z.shiftr n s) 255 = n / 2 ^ s mod 256) as HL by (intros s Hs; rewrite Z.shiftr_div_pow2 by lia; change 255 with (Z.ones 8); rewrite Z.land_ones by lia; reflexivity).
  assert (forall s, 0 <= s -> toChan (U 32 (Z.land (Z.shiftr n s) 255)) = n / 2 ^ s mod 256) as HC. { intros s Hs. unfold U. rewrite toChan_in; rewrite HL by lia; [reflexivity|]. unfold byte. pose proof (Z.mod_pos_bound (n / 2 ^ s) 256). lia. }
  unfold colorUnsigned, colorBits. rewrite !HC by lia. unfold color_ok, hex, byte. cbn [ch0 ch1 ch2 ch3]. split.
  - pose proof (Z.mod_pos_bound (n / 2 ^ 24) 256 ltac:(lia)). pose proof (Z.mod_pos_bound (n / 2 ^ 16) 256 ltac:(lia)). pose proof (Z.mod_pos_bound (n / 2 ^ 8) 256 ltac:(lia)). pose proof (Z.mod_pos_bound (n / 2 ^ 0) 256 ltac:(lia)). lia.
  - change (2 ^ 32) with 4294967296 in H. change (2 ^ 24) with 16777216. change (2 ^ 16) with 65536. change (2 ^ 8) with 256. change (2 ^ 0) with 1. rewrite Z.div_1_r.
    assert (n / 16777216 = n / 65536 / 256) as E1 by (rewrite Z.div_div by lia; reflexivity). assert (n / 65536 = n / 256 / 256) as E2 by (rewrite Z.div_div by lia; reflexivity).
    pose proof (Z.div_mod n 256 ltac:(lia)). pose proof (Z.div_mod (n / 256) 256 ltac:(lia)). pose proof (Z.div_mod (n / 65536) 256 ltac:(lia)). pose proof (Z.div_mod (n / 16777216) 256 ltac:(lia)).
    assert (n / 16777216 / 256 = 0) as E3 by (rewrite Z.div_div by lia; apply Z.div_small; lia). lia.
Qed.
Print Assumptions C103_color.
(* an Int gives the colour with the same bits *)
Theorem C103_color_int (n : Z) : - 2 ^ 31 <= n < 2 ^ 31 -> color_ok (colorInt n) /\ hex (colorInt n) mod 2 ^ 32 = n mod 2 ^ 32.
Proof. intros H. unfold colorInt. pose proof (Z.mod_pos_bound n (2 ^ 32) ltac:(lia)) as B. destruct (C103_color (n mod 2 ^ 32) B) as [A E]. unfold colorUnsigned in *. split; [exact A|]. rewrite E. apply Z.mod_mod. lia. Qed.
Print Assumptions C103_color_int.
Theorem C103_color_rgb (r g b : Z) : byte r -> byte g -> byte b -> colorRGB r g b = mkA 255 r g b.
Proof.
  intros Hr Hg Hb. assert (forall x, byte x -> toChan (U 8 (Z.land x 255)) = x) as K. { intros x Hx. change 255 with (Z.ones 8). rewrite Z.land_ones by lia. rewrite Z.mod_small by (unfold byte in Hx; change (2 ^ 8) with 256; lia). apply toChan_in. auto. }
  unfold colorRGB. rewrite !K by auto. reflexivity.
Qed.
Print Assumptions C103_color_rgb.

(* ---- between ---- *)
Lemma mix_ok a b p : byte a -> byte b -> 0 <= p <= 100 -> mix a b (U 32 p) (to EUnsigned 32 (U 32 (100 - p))) = Some ((a * p + b * (100 - p)) / 100) /\ Z.min a b <= (a * p + b * (100 - p)) / 100 <= Z.max a b.
Proof.
  unfold byte. intros Ha Hb Hp. assert (Z.min a b <= (a * p + b * (100 - p)) / 100 <= Z.max a b) as HR by (split; [apply Z.div_le_lower_bound|apply Z.div_le_upper_bound]; nia). split; [|exact HR].
  assert (forall z, 0 <= z <= 100000 -> clamp EUnsigned 32 z = z) as HC by (intros z Hz; apply clamp_in; change (minof EUnsigned 32) with 0; change (maxof EUnsigned 32) with 4294967295; lia).
  assert (to EUnsigned 32 (U 32 (100 - p)) = U 32 (100 - p)) as -> by (unfold to, U; cbn [n_v]; rewrite HC by lia; reflexivity).
  unfold mix, Chan, U. rewrite !binop_same by (auto; lia). cbn [bind apply_op]. change (opsize Multiply 8 32 32) with 32. rewrite !HC by nia.
  rewrite binop_same by (auto; lia). cbn [bind apply_op]. change (opsize Add 32 32 32) with 32. rewrite !HC by nia. rewrite binop_div by (auto; lia). cbn [bind]. rewrite Z.quot_div_nonneg by nia. change (Z.max 32 7) with 32. rewrite !(HC ((a * p + b * (100 - p)) / 100)) by lia. unfold to. cbn [n_v]. rewrite HC by lia. rewrite toChan_in; [reflexivity|unfold byte; lia].
Qed.
Theorem C103_between (a b : argb) (percent : Z) : color_ok a -> color_ok b -> 0 <= percent < 2 ^ 32 ->
  let p := Z.min percent 100 in
  exists c, between a b percent = Some c /\ color_ok c /\ ch0 c = ch0 a /\ rgb3 (fun x y z => z = (x * p + y * (100 - p)) / 100 /\ Z.min x y <= z <= Z.max x y) a b c.
Proof.
  intros (A0 & A1 & A2 & A3) (B0 & B1 & B2 & B3) HP p. unfold between. replace (if percent >? 100 then 100 else percent) with p by (unfold p; destruct (Z.gtb_spec percent 100); lia). assert (0 <= p <= 100) as Hp by lia. generalize dependent p. clear HP percent. intros p Hp.
  assert (binop Subtract (to EUnsigned 32 (U 7 100)) (U 32 p) = Some (U 32 (100 - p))) as ->.
  { unfold U, to. cbn [n_v]. change (clamp EUnsigned 32 100) with 100. rewrite binop_same by (auto; lia). change (opsize Subtract 32 32 32) with 32. cbn [apply_op]. rewrite clamp_in; [reflexivity|]. change (minof EUnsigned 32) with 0. change (maxof EUnsigned 32) with 4294967295. lia. }
  destruct (mix_ok (ch1 a) (ch1 b) p A1 B1 Hp) as [E1 R1], (mix_ok (ch2 a) (ch2 b) p A2 B2 Hp) as [E2 R2], (mix_ok (ch3 a) (ch3 b) p A3 B3 Hp) as [E3 R3]. cbn [bind]. rewrite E1. cbn [bind]. rewrite E2. cbn [bind]. rewrite E3. cbn [bind].
  eexists. split; [reflexivity|]. unfold color_ok, rgb3, byte in *. cbn [ch0 ch1 ch2 ch3]. repeat split; auto; lia.
Qed.
Print Assumptions C103_between.
Theorem C103_ends (a b : argb) : color_ok a -> color_ok b ->
  between a a 50 = Some a /\ (forall p, 100 <= p < 2 ^ 32 -> between a b p = Some a) /\ between a b 0 = Some (mkA (ch0 a) (ch1 b) (ch2 b) (ch3 b)).
Proof.
  intros HA HB. assert (forall x, (x * 50 + x * (100 - 50)) / 100 = x) as E50 by (intros x; replace (x * 50 + x * (100 - 50)) with (x * 100) by lia; apply Z.div_mul; lia). split; [|split].
  - destruct (C103_between a a 50 HA HA ltac:(lia)) as (c & -> & _ & E0 & (E1 & _) & (E2 & _) & (E3 & _)). change (Z.min 50 100) with 50 in *. rewrite E50 in E1, E2, E3. f_equal. destruct a as [a0 a1 a2 a3], c as [c0 c1 c2 c3]. cbn [ch0 ch1 ch2 ch3] in *. congruence.
  - intros p Hp. destruct (C103_between a b p HA HB ltac:(lia)) as (c & -> & _ & E0 & (E1 & _) & (E2 & _) & (E3 & _)). replace (Z.min p 100) with 100 in * by lia. rewrite Z.sub_diag, Z.mul_0_r, Z.add_0_r, Z.div_mul in E1, E2, E3 by lia. f_equal. destruct a as [a0 a1 a2 a3], c as [c0 c1 c2 c3]. cbn [ch0 ch1 ch2 ch3] in *. congruence.
  - destruct (C103_between a b 0 HA HB ltac:(lia)) as (c & -> & _ & E0 & (E1 & _) & (E2 & _) & (E3 & _)). change (Z.min 0 100) with 0 in *. rewrite Z.sub_0_r, Z.mul_0_r, Z.add_0_l, Z.div_mul in E1, E2, E3 by lia. f_equal. destruct c as [c0 c1 c2 c3]. cbn [ch0 ch1 ch2 ch3] in *. congruence.
Qed.
Print Assumptions C103_ends.
(* modify: that much white, the rest is the colour; the alpha is that of white *)
Theorem C103_modify (c : argb) (percent : Z) : color_ok c -> 0 <= percent < 2 ^ 32 ->
  let p := Z.min percent 100 in
  exists d, modify c percent = Some d /\ color_ok d /\ ch0 d = 255 /\
    rgb2 (fun x z => z = (255 * p + x * (100 - p)) / 100 /\ x <= z) c d /\
    (percent = 0 -> d = mkA 255 (ch1 c) (ch2 c) (ch3 c)) /\ (100 <= percent -> d = mkA 255 255 255 255).
Proof.
  intros HC HP p. pose proof HC as HC2. assert (color_ok (colorRGB 255 255 255)) as HW by (vm_compute; intuition congruence).
  unfold modify. destruct (C103_between (colorRGB 255 255 255) c percent HW HC HP) as (d & E & OK & E0 & R). fold p in R.
  exists d. split; [exact E|]. split; [exact OK|]. split; [exact E0|].
  change (colorRGB 255 255 255) with (mkA 255 255 255 255) in *. destruct HC as (_ & C1 & C2 & C3). unfold rgb3, rgb2, byte in *. cbn [ch0 ch1 ch2 ch3] in *.
  destruct R as ((R1 & L1) & (R2 & L2) & (R3 & L3)).
  (split; [repeat split; auto; lia|]). split; intros Q.
  - destruct (C103_ends (mkA 255 255 255 255) c HW HC2) as (_ & _ & X).
    subst percent. cbn [ch0 ch1 ch2 ch3] in X. rewrite X in E. injection E as <-. reflexivity.
  - destruct (C103_ends (mkA 255 255 255 255) c HW HC2) as (_ & X & _).
    rewrite (X percent) in E by lia. congruence.
Qed.
Print Assumptions C103_modify.
(* nothing of the first colour, but its alpha *)
Theorem C103_alpha_refuted : exists a b, color_ok a /\ color_ok b /\ between a b 0 <> Some b.
Proof. exists (mkA 255 1 2 3), (mkA 0 4 5 6). unfold color_ok, byte. cbn [ch0 ch1 ch2 ch3]. repeat split; try lia. vm_compute. discriminate. Qed.
Print Assumptions C103_alpha_refuted.

(* ---- dimmer ---- *)
Lemma dim_ok x : byte x -> exists y, dim x = Some y /\ y = 70 * x / 100 /\ byte y /\ (x = 0 -> y = 0) /\ (0 < x -> y < x).
Proof.
  intros H. pose (f := fun x => match dim x with Some y => (y =? 70 * x / 100) && (0 <=? y) && (y <=? 255) && (if x =? 0 then y =? 0 else y <? x) | None => false end). assert (f x = true) as F by (apply (bytes f); [vm_compute; reflexivity|auto]). unfold f in F. destruct (dim x) as [y|]; [|discriminate]. exists y. split; [auto|].
  generalize dependent (70 * x / 100). intros. unfold byte in *. destruct (Z.eqb_spec x 0); repeat split; lia.
Qed.
Theorem C103_dimmer (c : argb) : color_ok c -> exists d, dimmer c = Some d /\ color_ok d /\ ch0 d = 255 /\ rgb2 (fun x y => y = 70 * x / 100 /\ y <= x /\ (0 < x -> y < x)) c d.
Proof.
  intros (A0 & A1 & A2 & A3). unfold dimmer. destruct (dim_ok _ A1) as (x1 & F1 & E1 & B1 & C1 & D1), (dim_ok _ A2) as (x2 & F2 & E2 & B2 & C2 & D2), (dim_ok _ A3) as (x3 & F3 & E3 & B3 & C3 & D3). rewrite F1. cbn [bind]. rewrite F2. cbn [bind]. rewrite F3. cbn [bind]. eexists. split; [reflexivity|].
  unfold color_ok, rgb2, rgb3, byte in *. cbn [ch0 ch1 ch2 ch3]. repeat split; auto; lia.
Qed.
Print Assumptions C103_dimmer.

(* ---- brighter ---- *)
Lemma bright_ok x : byte x -> exists y, brighten x = Some y /\ y = Z.min 255 (100 * Z.max x 3 / 70) /\ byte y /\ (x <= y /\ (x < 255 -> x < y)) /\ 4 <= y.
Proof.
  intros H. pose (f := fun x => match brighten x with Some y => (y =? Z.min 255 (100 * Z.max x 3 / 70)) && (0 <=? y) && (y <=? 255) && (x <=? y) && (negb (x <? 255) || (x <? y)) && (4 <=? y) | None => false end). assert (f x = true) as F by (apply (bytes f); [vm_compute; reflexivity|auto]). unfold f in F. destruct (brighten x) as [y|]; [|discriminate]. exists y. split; [auto|].
  generalize dependent (Z.min 255 (100 * Z.max x 3 / 70)). intros. unfold byte in *. repeat split; lia.
Qed.
Theorem C103_brighter (c : argb) : color_ok c -> ~ black c -> exists d, brighter c = Some d /\ color_ok d /\ ch0 d = 255 /\ ~ black d /\ rgb2 (fun x y => y = Z.min 255 (100 * Z.max x 3 / 70) /\ x <= y /\ (x < 255 -> x < y)) c d.
Proof.
  intros (A0 & A1 & A2 & A3) HN. unfold brighter. destruct ((ch1 c =? 0) && (ch2 c =? 0) && (ch3 c =? 0)) eqn:E; [elim HN; unfold black; lia|].
  destruct (bright_ok _ A1) as (x1 & F1 & E1 & B1 & C1 & D1), (bright_ok _ A2) as (x2 & F2 & E2 & B2 & C2 & D2), (bright_ok _ A3) as (x3 & F3 & E3 & B3 & C3 & D3). rewrite F1. cbn [bind]. rewrite F2. cbn [bind]. rewrite F3. cbn [bind]. eexists. split; [reflexivity|].
  unfold color_ok, rgb2, rgb3, byte, black in *. cbn [ch0 ch1 ch2 ch3]. repeat split; auto; lia.
Qed.
Print Assumptions C103_brighter.

(* every colour becomes white in the end, and stays it; or black *)
Theorem C103_white (c : argb) (n : nat) : color_ok c -> (256 <= n)%nat -> exists d, times brighter n c = Some d /\ white d.
Proof.
  assert (forall n c, color_ok c -> ~ black c -> exists d, times brighter n c = Some d /\ color_ok d /\ ~ black d /\ rgb2 (fun x y => Z.min 255 (x + Z.of_nat n) <= y) c d) as K.
  { clear. induction n as [|n IH]; intros c HC HB.
    - exists c. split; [reflexivity|]. unfold color_ok, rgb2, rgb3, byte in *. repeat split; try tauto; lia.
    - cbn [times]. destruct (C103_brighter c HC HB) as (e & -> & HE & _ & NB & (_ & I1) & (_ & I2) & (_ & I3)). destruct (IH e HE NB) as (d & -> & HD & ND & L1 & L2 & L3). exists d. split; [reflexivity|]. split; [auto|]. split; [auto|]. unfold color_ok, rgb2, rgb3, byte in *. repeat split; lia. }
  intros HC Hn.
  assert (exists e m, times brighter n c = times brighter m e /\ color_ok e /\ ~ black e /\ (255 <= m)%nat) as (e & m & -> & HE & NB & Hm).
  { destruct ((ch1 c =? 0) && (ch2 c =? 0) && (ch3 c =? 0)) eqn:E.
    - destruct n as [|n]; [lia|]. exists (colorUnsigned 197379), n. cbn [times]. unfold brighter at 1. rewrite E. split; [reflexivity|]. split; [apply C103_color; lia|]. split; [|lia]. intros (X & _). vm_compute in X. discriminate.
    - exists c, n. split; [reflexivity|]. split; [auto|]. split; [|lia]. unfold black. lia. }
  destruct (K m e HE NB) as (d & E & HD & _ & L1 & L2 & L3). exists d. split; [exact E|]. unfold white, color_ok, byte in *. lia.
Qed.
Print Assumptions C103_white.
Theorem C103_black (c : argb) (n : nat) : color_ok c -> (255 <= n)%nat -> exists d, times dimmer n c = Some d /\ black d.
Proof.
  assert (forall n c, color_ok c -> exists d, times dimmer n c = Some d /\ color_ok d /\ rgb2 (fun x y => y <= Z.max 0 (x - Z.of_nat n)) c d) as K.
  { clear. induction n as [|n IH]; intros c HC.
    - exists c. split; [reflexivity|]. unfold color_ok, rgb2, rgb3, byte in *. repeat split; try tauto; lia.
    - cbn [times]. destruct (C103_dimmer c HC) as (e & -> & HE & _ & (_ & I1) & (_ & I2) & (_ & I3)). destruct (IH e HE) as (d & -> & HD & L1 & L2 & L3). exists d. split; [reflexivity|]. split; [auto|]. unfold color_ok, rgb2, rgb3, byte in *. repeat split; lia. }
  intros HC Hn. destruct (K n c HC) as (d & E & HD & L1 & L2 & L3). exists d. split; [exact E|]. unfold black, color_ok, byte in *. lia.
Qed.
Print Assumptions C103_black.
(* dimmer takes back what brighter did, but for rounding, where nothing was cut off *)
Theorem C103_back (x : Z) : 3 <= x <= 178 -> exists y z, brighten x = Some y /\ dim y = Some z /\ x - 1 <= z <= x.
Proof.
  intros H. pose (f := fun x => (x <? 3) || (178 <? x) || match brighten x with Some y => match dim y with Some z => (x - 1 <=? z) && (z <=? x) | None => false end | None => false end). assert (f x = true) as F by (apply (bytes f); [vm_compute; reflexivity|unfold byte; lia]). unfold f in F. destruct (brighten x) as [y|]; [|lia]. destruct (dim y) as [z|] eqn:E; [|lia]. exists y, z. repeat split; auto; lia.
Qed.
Print Assumptions C103_back.
(* the comment promises: black becomes grey; blue stays blue.  Black becomes a grey of alpha 0, all other colours get alpha 255; blue becomes a
   colour with red and green in it *)
Theorem C103_brighter_refuted : brighter (mkA 255 0 0 0) = Some (mkA 0 3 3 3) /\ brighter (mkA 255 0 0 100) = Some (mkA 255 4 4 142).
Proof. split; vm_compute; reflexivity. Qed.
Print Assumptions C103_brighter_refuted.

Example C103_ex : colorUnsigned 4278190335 = mkA 255 0 0 255 /\ colorInt (-1) = mkA 255 255 255 255 /\ color_ok (mkA 255 10 20 30) /\ ~ black (mkA 255 10 20 30) /\
  between (mkA 255 10 20 30) (mkA 7 110 120 255) 25 = Some (mkA 255 85 95 198) /\ modify (mkA 255 0 100 200) 10 = Some (mkA 255 25 115 205) /\ times brighter 12 (mkA 255 10 20 30) = Some (mkA 255 255 255 255).
Proof. repeat split; try (vm_compute; congruence); intros (X & _); vm_compute in X; discriminate. Qed.
