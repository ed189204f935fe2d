(** C35: element type numbers are unique, never reserved, and are found again.  *)
From Coq Require Import String List NArith ZArith Lia Bool FinFun.
From Coq Require Import ZifyBool ZifyNat ZifyN.
From Verif Require Import Base StringPoolProofs ElementTypeModel.
Import ListNotations.
Open Scope N_scope.

(** ** The numbers tried *)

Lemma lor_shift : forall a b m, m < 2 ^ b -> N.lor (N.shiftl a b) m = a * 2 ^ b + m.
Proof.
  intros a b m Hm. rewrite <- N.shiftl_mul_pow2.
  assert (Hl : N.land (N.shiftl a b) m = 0).
  { apply N.bits_inj. intros i. rewrite N.land_spec, N.bits_0.
    destruct (N.lt_ge_cases i b) as [Hi|Hi].
    - rewrite N.shiftl_spec_low by exact Hi. reflexivity.
    - rewrite <- (N.mod_small m (2 ^ b)) by exact Hm.
      rewrite N.mod_pow2_bits_high by exact Hi. apply andb_false_r. }
  rewrite N.add_nocarry_lxor by exact Hl. symmetry. apply N.lxor_lor. exact Hl.
Qed.

(** One round of spreading without overflow.  *)
Definition put (bpb bits : N) (c t : N) (j : N) : N :=
  t * 2 ^ bpb + (if N.testbit c j then bits else 0).

Lemma spread_step : forall j bpb c t, t * 2 ^ bpb < 65536 ->
  spread (S j) bpb (2 ^ bpb - 1) c t
  = spread j bpb (2 ^ bpb - 1) c (put bpb (2 ^ bpb - 1) c t (N.of_nat j)).
Proof.
  intros j bpb c t H. cbn [spread]. unfold put. f_equal.
  pose proof (N.pow_nonzero 2 bpb ltac:(lia)).
  assert (Hu : u32 (N.shiftl t bpb) = N.shiftl t bpb).
  { unfold u32, two32. apply N.mod_small. rewrite N.shiftl_mul_pow2. lia. }
  rewrite Hu. destruct (N.testbit c (N.of_nat j)).
  - apply lor_shift. lia.
  - rewrite N.shiftl_mul_pow2. lia.
Qed.

Lemma put_bound : forall bpb c t j a, t < 2 ^ a -> put bpb (2 ^ bpb - 1) c t j < 2 ^ (a + bpb).
Proof.
  intros bpb c t j a H. unfold put. rewrite N.pow_add_r.
  pose proof (N.pow_nonzero 2 bpb ltac:(lia)).
  assert ((t + 1) * 2 ^ bpb <= 2 ^ a * 2 ^ bpb) by (apply N.mul_le_mono_r; lia).
  destruct (N.testbit c j); lia.
Qed.

Lemma spread_bound : forall i bpb c t a,
  t < 2 ^ a -> a + N.of_nat i * bpb <= 16 ->
  spread i bpb (2 ^ bpb - 1) c t < 65536.
Proof.
  induction i as [|j IH]; intros bpb c t a Ht Ha.
  - cbn [spread]. apply N.lt_le_trans with (2 ^ a); [exact Ht|].
    change 65536 with (2 ^ 16). apply N.pow_le_mono_r; lia.
  - rewrite spread_step.
    + apply (IH bpb c _ (a + bpb)); [apply put_bound; exact Ht|lia].
    + assert (t * 2 ^ bpb < 2 ^ (a + bpb)).
      { rewrite N.pow_add_r. apply N.mul_lt_mono_pos_r; [|exact Ht].
        pose proof (N.pow_nonzero 2 bpb ltac:(lia)). lia. }
      apply N.lt_le_trans with (2 ^ (a + bpb)); [assumption|].
      change 65536 with (2 ^ 16). apply N.pow_le_mono_r; lia.
Qed.

Lemma high_idx_range : forall i c, (1 <= i)%nat -> (1 <= high_idx i c <= i)%nat.
Proof.
  induction i as [|i IH]; intros c Hi; [lia|].
  destruct i as [|j]; [cbn; lia|].
  cbn [high_idx]. fold (high_idx (S j) c).
  destruct (N.testbit c (N.of_nat (S (S j)))); [lia|].
  specialize (IH c ltac:(lia)). cbn [high_idx] in IH. lia.
Qed.

(** Every number tried fits the field.  *)
Lemma candidate_range : forall c, candidate c < 65536.
Proof.
  intros c. unfold candidate. pose proof (high_idx_range 31 c ltac:(lia)) as Hh.
  generalize dependent (high_idx 31 c). intros h Hh.
  apply (spread_bound h _ c 0 0); [cbn; lia|].
  unfold TYPE_BITS. pose proof (N.mul_div_le 16 (N.of_nat h) ltac:(lia)). lia.
Qed.

Lemma ele_candidate : forall c, ele (candidate c) = candidate c.
Proof. intros c. unfold ele. apply N.mod_small. apply candidate_range. Qed.

(** The counters from 65536 on try every 16-bit number.  *)
Lemma high_idx_16 : forall t, t < 65536 -> high_idx 31 (65536 + t) = 16%nat.
Proof.
  intros t Ht.
  assert (Hhi : forall i, 17 <= i -> N.testbit (65536 + t) i = false).
  { intros i Hi. rewrite <- (N.mod_small (65536 + t) (2 ^ 17)) by (change (2 ^ 17) with 131072; lia).
    apply N.mod_pow2_bits_high. exact Hi. }
  assert (H16 : N.testbit (65536 + t) 16 = true).
  { rewrite N.testbit_true.
    replace ((65536 + t) / 2 ^ 16) with 1; [reflexivity|].
    change (2 ^ 16) with 65536.
    apply (N.div_unique (65536 + t) 65536 1 t); lia. }
  cbn [high_idx].
  repeat (rewrite Hhi by (vm_compute; discriminate)).
  change (N.of_nat 16) with 16. rewrite H16. reflexivity.
Qed.

Lemma spread_all : forall i c t, N.of_nat i <= 16 -> t < 2 ^ (16 - N.of_nat i) ->
  spread i 1 1 c t = t * 2 ^ N.of_nat i + c mod 2 ^ N.of_nat i.
Proof.
  induction i as [|j IH]; intros c t Hi Ht.
  - cbn. rewrite N.mod_1_r. lia.
  - assert (Hb : 2 ^ (16 - N.of_nat j) = 2 * 2 ^ (16 - N.of_nat (S j))).
    { rewrite <- N.pow_succ_r'. f_equal. lia. }
    assert (Hp : put 1 (2 ^ 1 - 1) c t (N.of_nat j) = 2 * t + (c / 2 ^ N.of_nat j) mod 2).
    { unfold put. rewrite N.testbit_eqb. change (2 ^ 1) with 2. change (2 - 1) with 1.
      pose proof (N.mod_upper_bound (c / 2 ^ N.of_nat j) 2 ltac:(lia)).
      generalize dependent ((c / 2 ^ N.of_nat j) mod 2). intros m Hm.
      destruct (m =? 1) eqn:E; lia. }
    pose proof (spread_step j 1 c t) as Hs. change (2 ^ 1 - 1) with 1 in Hs, Hp.
    rewrite Hs.
    2:{ change (2 ^ 1) with 2. assert (2 ^ (16 - N.of_nat j) <= 2 ^ 16)
          by (apply N.pow_le_mono_r; lia). change (2 ^ 16) with 65536 in *. lia. }
    rewrite Hp. pose proof (N.mod_upper_bound (c / 2 ^ N.of_nat j) 2 ltac:(lia)).
    rewrite IH by lia.
    replace (N.of_nat (S j)) with (N.succ (N.of_nat j)) by lia.
    rewrite N.pow_succ_r'.
    rewrite (N.mul_comm 2 (2 ^ N.of_nat j)).
    rewrite N.mod_mul_r by (try apply N.pow_nonzero; lia). lia.
Qed.

Lemma candidate_16 : forall t, t < 65536 -> candidate (65536 + t) = t.
Proof.
  intros t Ht. unfold candidate. rewrite high_idx_16 by exact Ht.
  change (TYPE_BITS / N.of_nat 16) with 1. change (2 ^ 1 - 1) with 1.
  rewrite spread_all; [|cbn; lia|cbn; lia].
  change (2 ^ N.of_nat 16) with 65536. cbn [N.mul].
  replace (65536 + t) with (t + 1 * 65536) by lia.
  rewrite N.mod_add by lia. rewrite N.mod_small by lia. reflexivity.
Qed.

(** ** The generator *)

Lemma known_In : forall t l, known t l = true <-> In t l.
Proof.
  intros t l. unfold known. rewrite existsb_exists. split.
  - intros (x & Hx & E). apply N.eqb_eq in E. subst. exact Hx.
  - intros H. exists t. split; [exact H|apply N.eqb_refl].
Qed.

Definition usable (t : N) : Prop := 0 < t < 65535.

Lemma make_type_spec : forall fuel c set t c' set',
  make_type fuel c set = Some (t, c', set') -> usable t /\ ~ In t set /\ set' = t :: set.
Proof.
  induction fuel as [|f IH]; intros c set t c' set' H; cbn [make_type] in H; [discriminate H|].
  rewrite ele_candidate in H.
  pose proof (candidate_range (u32 (c + 1))) as Hr.
  destruct ((candidate (u32 (c + 1)) =? EMPTY_TYPE) || (candidate (u32 (c + 1)) =? UNDEFINED_TYPE)
            || known (candidate (u32 (c + 1))) set) eqn:E.
  - apply IH in H. exact H.
  - injection H as; subst. apply orb_false_elim in E. destruct E as (E & Hk).
    unfold usable, EMPTY_TYPE, UNDEFINED_TYPE in *. split; [lia|]. split; [|reflexivity].
    intros Hin. apply known_In in Hin. congruence.
Qed.

(** The counter has tried all of 65536 .. counter.  *)
Definition tried (c : N) (set : list N) : Prop :=
  forall t, usable t -> 65536 + t <= c -> In t set.

Lemma make_type_tried : forall fuel c set t c' set', c < 131071 -> tried c set ->
  make_type fuel c set = Some (t, c', set') -> c < c' /\ (c' < 131071 -> tried c' set').
Proof.
  induction fuel as [|f IH]; intros c set t c' set' Hc Ht H; cbn [make_type] in H;
    [discriminate H|].
  assert (Hu : u32 (c + 1) = c + 1)
    by (unfold u32, two32; apply N.mod_small; lia).
  rewrite ele_candidate, Hu in H.
  destruct ((candidate (c + 1) =? EMPTY_TYPE) || (candidate (c + 1) =? UNDEFINED_TYPE)
            || known (candidate (c + 1)) set) eqn:E.
  - destruct (N.eq_dec (c + 1) 131071) as [He|He].
    + (* the counter runs out of 16-bit numbers: everything usable is known *)
      split; [|intros Hlt].
      * (* a later counter value *)
        exfalso. apply make_type_spec in H. destruct H as (Hus & Hni & _).
        apply Hni. apply Ht; [exact Hus|]. unfold usable in Hus. lia.
      * exfalso. apply make_type_spec in H. destruct H as (Hus & Hni & _).
        apply Hni. apply Ht; [exact Hus|]. unfold usable in Hus. lia.
    + apply IH in H; [|lia|].
      * split; [lia|]. apply H.
      * intros t1 Hus Hle. destruct (N.eq_dec (65536 + t1) (c + 1)) as [Heq|Hne].
        -- rewrite <- Heq, candidate_16 in E by (unfold usable in Hus; lia).
           unfold usable, EMPTY_TYPE, UNDEFINED_TYPE in *.
           assert (Hk : known t1 set = true).
           { destruct (known t1 set); [reflexivity|].
             destruct (t1 =? 65535) eqn:?, (t1 =? 0) eqn:?; cbn in E; lia. }
           apply known_In. exact Hk.
        -- apply Ht; [exact Hus|lia].
  - injection H as; subst. split; [lia|]. intros _ t1 Hus Hle.
    destruct (N.eq_dec (65536 + t1) (c + 1)) as [Heq|Hne].
    + left. rewrite <- Heq. apply candidate_16. unfold usable in Hus. lia.
    + right. apply Ht; [exact Hus|lia].
Qed.

(** While something usable is not known, the search ends.  *)
Lemma make_type_ends : forall fuel c set t, usable t -> ~ In t set -> c < 65536 + t ->
  65536 + t <= c + N.of_nat fuel -> exists r, make_type fuel c set = Some r.
Proof.
  induction fuel as [|f IH]; intros c set t Hus Hni Hc Hf; [lia|].
  cbn [make_type].
  assert (Hu : u32 (c + 1) = c + 1)
    by (unfold u32, two32, usable in *; apply N.mod_small; lia).
  rewrite ele_candidate, Hu.
  destruct ((candidate (c + 1) =? EMPTY_TYPE) || (candidate (c + 1) =? UNDEFINED_TYPE)
            || known (candidate (c + 1)) set) eqn:E; [|eexists; reflexivity].
  destruct (N.eq_dec (65536 + t) (c + 1)) as [Heq|Hne].
  - rewrite <- Heq, candidate_16 in E by (unfold usable in Hus; lia).
    assert (Hk : known t set = false).
    { destruct (known t set) eqn:Hk; [|reflexivity]. apply known_In in Hk. contradiction. }
    rewrite Hk in E. unfold usable, EMPTY_TYPE, UNDEFINED_TYPE in *. lia.
  - apply (IH (c + 1) set t); auto; lia.
Qed.

(** Numbers between 1 and 65534.  *)
Definition all_types : list N := map (fun i => N.of_nat i + 1) (seq 0 (N.to_nat 65534)).

Lemma all_types_In : forall t, In t all_types <-> usable t.
Proof.
  intros t. unfold all_types, usable. rewrite in_map_iff. split.
  - intros (i & <- & Hi). apply in_seq in Hi. lia.
  - intros H. exists (N.to_nat (t - 1)). split; [lia|]. apply in_seq. lia.
Qed.

Lemma all_types_length : List.length all_types = N.to_nat 65534.
Proof. unfold all_types. rewrite map_length. apply seq_length. Qed.

(** Fewer than 65534 numbers leave one over.  *)
Lemma one_left : forall set, (List.length set < N.to_nat 65534)%nat -> exists t, usable t /\ ~ In t set.
Proof.
  intros set Hl.
  destruct (existsb (fun t => negb (known t set)) all_types) eqn:E.
  - apply existsb_exists in E. destruct E as (t & Ht & Hn). exists t.
    split; [apply all_types_In; exact Ht|]. intros Hin. apply known_In in Hin.
    rewrite Hin in Hn. discriminate Hn.
  - exfalso. assert (Hi : incl all_types set).
    { intros t Ht. destruct (known t set) eqn:Hk; [apply known_In; exact Hk|].
      assert (existsb (fun t => negb (known t set)) all_types = true).
      { apply existsb_exists. exists t. rewrite Hk. auto. }
      congruence. }
    apply NoDup_incl_length in Hi.
    + rewrite all_types_length in Hi. lia.
    + unfold all_types. apply FinFun.Injective_map_NoDup; [|apply seq_NoDup].
      intros x y. lia.
Qed.

(** What is always true of the generator.  *)
Record gen_ok (g : gen) : Prop := {
  ok_usable : Forall usable (g_set g);
  ok_nodup : NoDup (g_set g);
  ok_map : map fst (g_map g) = g_set g;
  ok_next : g_next g = N.of_nat (List.length (g_set g));
  ok_counter : g_counter g < 131071;
  ok_tried : tried (g_counter g) (g_set g) }.

Lemma gen0_ok : gen_ok gen0.
Proof.
  constructor; cbn; try reflexivity; try constructor.
  unfold tried, usable. intros t Ht H. lia.
Qed.

Lemma set_size : forall g, gen_ok g -> (List.length (g_set g) <= N.to_nat 65534)%nat.
Proof.
  intros g [H1 H2 _ _ _ _]. rewrite <- all_types_length.
  apply NoDup_incl_length; [exact H2|]. intros t Ht. apply all_types_In.
  rewrite Forall_forall in H1. apply H1. exact Ht.
Qed.

Lemma map_find_none : forall t m, ~ In t (map fst m) -> map_find t m = None.
Proof.
  induction m as [|[a b] m IH]; intros H; cbn in *; [reflexivity|].
  destruct (a =? t) eqn:E; [exfalso; apply H; left; lia|]. apply IH. intros Hi. apply H. auto.
Qed.

Lemma make_type_counter : forall f c set t c' set', c < 131071 -> tried c set ->
  make_type f c set = Some (t, c', set') -> c' < 131071.
Proof.
  induction f as [|f IH]; intros c set t c' set' Hc Ht H; cbn [make_type] in H;
        [discriminate H|].
      assert (Hu : u32 (c + 1) = c + 1) by (unfold u32, two32; apply N.mod_small; lia).
      destruct (N.eq_dec (c + 1) 131071) as [He|He].
      - exfalso. change (make_type (S f) c set = Some (t, c', set')) in H.
        apply make_type_spec in H. destruct H as (Hus & Hni & _).
        apply Hni. apply Ht; [exact Hus|]. unfold usable in Hus. lia.
      - rewrite ele_candidate, Hu in H.
        destruct ((candidate (c + 1) =? EMPTY_TYPE) || (candidate (c + 1) =? UNDEFINED_TYPE)
                  || known (candidate (c + 1)) set) eqn:E.
        + apply (IH (c + 1) set t c' set'); [lia| |exact H].
          intros t1 Hus Hle. destruct (N.eq_dec (65536 + t1) (c + 1)) as [Heq|Hne].
          * rewrite <- Heq, candidate_16 in E by (unfold usable in Hus; lia).
            unfold usable, EMPTY_TYPE, UNDEFINED_TYPE in *.
            apply known_In. destruct (known t1 set); [reflexivity|].
            destruct (t1 =? 65535) eqn:?, (t1 =? 0) eqn:?; cbn in E; lia.
          * apply Ht; [exact Hus|lia].
        + injection H as; subst. lia.
Qed.

Lemma make_next_val : forall fuel u g t g', gen_ok g -> make_next fuel u g = Val (t, g') ->
  gen_ok g' /\ usable t /\ ~ In t (g_set g) /\
  g_set g' = t :: g_set g /\ g_map g' = (t, u) :: g_map g.
Proof.
  intros fuel u g t g' Hok H. unfold make_next in H.
  destruct (g_next g <? MAX_TYPE); [|discriminate H].
  destruct (make_type fuel (g_counter g) (g_set g)) as [[[t1 c1] s1]|] eqn:E; [|discriminate H].
  destruct (map_find t1 (g_map g)); [discriminate H|]. injection H as; subst.
  pose proof (set_size g Hok) as Hsz.
  destruct Hok as [H1 H2 H3 H4 H5 H6].
  pose proof (make_type_tried _ _ _ _ _ _ H5 H6 E) as (Hlt & Ht).
  pose proof (make_type_spec _ _ _ _ _ _ E) as (Hus & Hni & ->).
  pose proof (make_type_counter _ _ _ _ _ _ H5 H6 E) as Hc.
  split; [|split; [exact Hus|split; [exact Hni|split; reflexivity]]].
  constructor; cbn [g_set g_map g_next g_counter].
  - constructor; assumption.
  - constructor; assumption.
  - cbn. rewrite H3. reflexivity.
  - rewrite H4. unfold u32, two32. rewrite N.mod_small; [cbn [List.length]; lia|lia].
  - exact Hc.
  - apply Ht. exact Hc.
Qed.

(** Within the capacity the next number is made.  *)
Lemma make_next_total : forall u g, gen_ok g -> (List.length (g_set g) < N.to_nat 65534)%nat ->
  exists t g', make_next (N.to_nat 131072) u g = Val (t, g').
Proof.
  intros u g Hok Hl. pose proof Hok as [H1 H2 H3 H4 H5 H6].
  destruct (one_left _ Hl) as (t & Hus & Hni).
  assert (Hc : g_counter g < 65536 + t).
  { destruct (N.lt_ge_cases (g_counter g) (65536 + t)) as [H|H]; [exact H|].
    exfalso. apply Hni. apply H6; auto. }
  destruct (make_type_ends (N.to_nat 131072) (g_counter g) (g_set g) t Hus Hni Hc)
    as ([[t1 c1] s1] & E); [unfold usable in Hus; lia|].
  unfold make_next. rewrite H4. replace (_ <? MAX_TYPE) with true
    by (unfold MAX_TYPE; lia).
  rewrite E. pose proof (make_type_spec _ _ _ _ _ _ E) as (_ & Hn1 & _).
  rewrite map_find_none by (rewrite H3; exact Hn1). eexists _, _. reflexivity.
Qed.

(** ** Runs of the compiler *)

Record world_ok (w : world) : Prop := {
  wok_gen : gen_ok (w_gen w);
  (* a class keeps a generated number or, if it is Empty, the number of Empty *)
  wok_kept : forall u t, map_find u (w_ele w) = Some t ->
     (u = w_empty w /\ t = EMPTY_TYPE) \/
     (u <> w_empty w /\ usable t /\ map_find t (g_map (w_gen w)) = Some u);
  wok_made : forall t u, map_find t (g_map (w_gen w)) = Some u ->
     map_find u (w_ele w) = Some t }.

Lemma get_type_ok : forall fuel u w t w', world_ok w -> get_type fuel u w = Val (t, w') ->
  world_ok w' /\ w_empty w' = w_empty w /\ map_find u (w_ele w') = Some t /\
  (forall v s, map_find v (w_ele w) = Some s -> map_find v (w_ele w') = Some s).
Proof.
  intros fuel u w t w' Hok H. pose proof Hok as [Hg Hk Hm]. unfold get_type, kept in H.
  destruct (map_find u (w_ele w)) as [t0|] eqn:Eu.
  - assert (Ht0 : t0 =? UNDEFINED_TYPE = false).
    { apply Hk in Eu. unfold UNDEFINED_TYPE, EMPTY_TYPE, usable in *. lia. }
    rewrite Ht0 in H. injection H as; subst. auto.
  - cbn in H. destruct (u =? w_empty w) eqn:Ee.
    + injection H as; subst. assert (u = w_empty w) by lia. subst u.
      cbn. rewrite N.eqb_refl. split; [|split; [reflexivity|split; [reflexivity|]]].
      * constructor; cbn; [exact Hg| |].
        -- intros v s Hv. destruct (w_empty w =? v) eqn:Ev.
           ++ injection Hv as; subst. left. split; [lia|reflexivity].
           ++ apply Hk in Hv. exact Hv.
        -- intros s v Hs. pose proof (Hm _ _ Hs) as Hv.
           destruct (w_empty w =? v) eqn:Ev; [|exact Hv].
           replace v with (w_empty w) in Hv by lia. congruence.
      * intros v s Hv. destruct (w_empty w =? v) eqn:Ev; [|exact Hv].
        replace v with (w_empty w) in Hv by lia. congruence.
    + destruct (make_next fuel u (w_gen w)) as [[t1 g1]| |] eqn:En; try discriminate H.
      pose proof (make_next_val _ _ _ _ _ Hg En) as (Hg1 & Hus & Hni & Hs1 & Hm1).
      assert (Hb : (t1 =? UNDEFINED_TYPE) || (MAX_TYPE <=? t1) = false)
        by (unfold usable, UNDEFINED_TYPE, MAX_TYPE in *; lia).
      rewrite Hb in H. injection H as; subst. cbn. rewrite N.eqb_refl.
      split; [|split; [reflexivity|split; [reflexivity|]]].
      * constructor; cbn; [exact Hg1| |].
        -- intros v s Hv. destruct (u =? v) eqn:Ev.
           ++ injection Hv as; subst. right. split; [lia|]. split; [exact Hus|].
              rewrite Hm1. cbn. rewrite N.eqb_refl. f_equal. lia.
           ++ apply Hk in Hv. destruct Hv as [Hv|(Ha & Hb1 & Hc)]; [left; exact Hv|].
              right. split; [exact Ha|]. split; [exact Hb1|]. rewrite Hm1. cbn.
              destruct (t =? s) eqn:Ets; [|exact Hc]. exfalso.
              assert (t = s) by lia. subst s.
              rewrite map_find_none in Hc; [discriminate Hc|].
              rewrite (ok_map _ Hg). exact Hni.
        -- intros s v Hs. rewrite Hm1 in Hs. cbn in Hs. destruct (t =? s) eqn:Ets.
           ++ injection Hs as; subst. rewrite N.eqb_refl. f_equal. lia.
           ++ pose proof (Hm _ _ Hs) as Hv. destruct (u =? v) eqn:Ev; [|exact Hv].
              replace v with u in Hv by lia. congruence.
      * intros v s Hv. destruct (u =? v) eqn:Ev; [|exact Hv].
        replace v with u in Hv by lia. congruence.
Qed.

Lemma get_types_ok : forall fuel us w ts w', world_ok w -> get_types fuel us w = Val (ts, w') ->
  world_ok w' /\ w_empty w' = w_empty w /\
  (forall v s, map_find v (w_ele w) = Some s -> map_find v (w_ele w') = Some s) /\
  Forall2 (fun u t => map_find u (w_ele w') = Some t) us ts.
Proof.
  intros fuel. induction us as [|u us IH]; intros w ts w' Hok H; cbn [get_types] in H.
  - injection H as; subst. split; [exact Hok|]. split; [reflexivity|]. split; [auto|constructor].
  - destruct (get_type fuel u w) as [[t w1]| |] eqn:E1; try discriminate H.
    destruct (get_types fuel us w1) as [[ts1 w2]| |] eqn:E2; try discriminate H.
    injection H as; subst.
    apply get_type_ok in E1; [|exact Hok]. destruct E1 as (Hok1 & He1 & Hf1 & Hp1).
    apply IH in E2; [|exact Hok1]. destruct E2 as (Hok2 & He2 & Hp2 & Hf2).
    split; [exact Hok2|]. split; [congruence|]. split; [auto|]. constructor; auto.
Qed.

Definition world0 (empty : N) : world := mkWorld gen0 [] empty.

Lemma world0_ok : forall e, world_ok (world0 e).
Proof.
  intros e. constructor; cbn; [apply gen0_ok| |]; discriminate.
Qed.

Lemma F2_nth : forall A B (P : A -> B -> Prop) l1 l2 i a b, Forall2 P l1 l2 ->
  nth_error l1 i = Some a -> nth_error l2 i = Some b -> P a b.
Proof.
  intros A B P l1 l2 i a b H. revert i. induction H as [|x y l1 l2 Hxy H IH]; intros i Ha Hb;
    destruct i as [|i]; cbn in *; try discriminate; [congruence|]. apply (IH i); auto.
Qed.

(** However many types are asked for and in whatever order: the same class always gets the
    same number, different classes get different numbers; no class gets 0 and only Empty
    gets 65535; the numbers fit 16 bits; and looking a number up yields its class.  *)
Theorem C35_types : forall fuel empty us ts w,
  get_types fuel us (world0 empty) = Val (ts, w) ->
  List.length ts = List.length us /\
  forall i j u v t s, nth_error us i = Some u -> nth_error ts i = Some t ->
    nth_error us j = Some v -> nth_error ts j = Some s ->
    (u = v <-> t = s) /\
    0 < t < 65536 /\ (t = 65535 <-> u = empty) /\
    lookup_class t w = Val u.
Proof.
  intros fuel empty us ts w H.
  apply get_types_ok in H; [|apply world0_ok]. destruct H as (Hok & He & _ & Hf).
  split; [symmetry; eapply Forall2_length; exact Hf|].
  intros i j u v t s Hu Ht Hv Hs.
  pose proof (F2_nth _ _ _ _ _ _ _ _ Hf Hu Ht) as Hut.
  pose proof (F2_nth _ _ _ _ _ _ _ _ Hf Hv Hs) as Hvs. cbn in Hut, Hvs.
  cbn in He. pose proof (wok_kept _ Hok _ _ Hut) as Ku. pose proof (wok_kept _ Hok _ _ Hvs) as Kv.
  rewrite He in Ku, Kv. unfold EMPTY_TYPE in *. split; [|split; [|split]].
  - split; intros E; subst; [congruence|].
    destruct Ku as [(Ku1 & Ku2)|(Ku1 & Ku2 & Ku3)], Kv as [(Kv1 & Kv2)|(Kv1 & Kv2 & Kv3)];
      unfold usable in *; try lia; congruence.
  - unfold usable in Ku. lia.
  - unfold usable in Ku. lia.
  - unfold lookup_class, EMPTY_TYPE, UNDEFINED_TYPE, find_class.
    destruct Ku as [(Ku1 & Ku2)|(Ku1 & Ku2 & Ku3)]; unfold usable in *.
    + subst t. cbn. congruence.
    + replace (t =? 65535) with false by lia. replace (t =? 0) with false by lia.
      rewrite Ku3. reflexivity.
Qed.
Print Assumptions C35_types.

(** How many different classes other than Empty a run asks for.  *)
Definition asked (empty : N) (us : list N) : list N :=
  filter (fun u => negb (u =? empty)) (nodup N.eq_dec us).

Lemma kept_size : forall w, world_ok w -> exists l, NoDup l /\
  List.length l = List.length (g_set (w_gen w)) /\
  forall u, In u l <-> (u <> w_empty w /\ exists t, map_find u (w_ele w) = Some t).
Proof.
  intros w Hok. pose proof Hok as [Hg Hk Hm]. exists (map snd (g_map (w_gen w))).
  pose proof (ok_map _ Hg) as Hfst. pose proof (ok_nodup _ Hg) as Hnd.
  assert (Hfind : forall m t u, NoDup (map fst m) -> In (t, u) m -> map_find t m = Some u).
  { induction m as [|[a b] m IH]; cbn; intros t u Hn Hin; [destruct Hin|].
    inversion Hn; subst. destruct Hin as [Hin|Hin].
    - injection Hin as; subst. rewrite N.eqb_refl. reflexivity.
    - destruct (a =? t) eqn:E; [|apply IH; auto]. exfalso. assert (a = t) by lia. subst a.
      apply H1. apply in_map_iff. exists (t, u). auto. }
  assert (Hin : forall m t u, map_find t m = Some u -> In (t, u) m).
  { induction m as [|[a b] m IH]; cbn; intros t u Hf; [discriminate Hf|].
    destruct (a =? t) eqn:E; [|right; apply IH; exact Hf].
    injection Hf as; subst. left. f_equal. lia. }
  rewrite <- Hfst in Hnd.
  split; [|split].
  - assert (Hinj : forall m, NoDup (map fst m) ->
      (forall t u, In (t, u) m -> map_find u (w_ele w) = Some t) -> NoDup (map snd m)).
    { induction m as [|[a b] m IH]; cbn; intros Hn Hall; [constructor|].
      inversion Hn; subst. constructor.
      - intros Hb. apply in_map_iff in Hb. destruct Hb as ([a' b'] & Hb1 & Hb2). cbn in Hb1.
        subst b'. pose proof (Hall a b (or_introl eq_refl)).
        pose proof (Hall a' b (or_intror Hb2)).
        apply H1. apply in_map_iff. exists (a', b). split; [cbn; congruence|exact Hb2].
      - apply IH; auto. }
    apply Hinj; [exact Hnd|]. intros t u Htu. apply Hm. apply Hfind; auto.
  - rewrite <- Hfst. rewrite !map_length. reflexivity.
  - intros u. rewrite in_map_iff. split.
    + intros ([t u'] & E & Hi). cbn in E. subst u'.
      assert (Hf : map_find t (g_map (w_gen w)) = Some u) by (apply Hfind; auto).
      pose proof (Hm _ _ Hf) as Hu. split; [|exists t; exact Hu].
      destruct (Hk _ _ Hu) as [(_ & Ht)|(Hne & _)]; [|exact Hne]. exfalso.
      pose proof (ok_usable _ Hg) as Hus. rewrite Forall_forall in Hus.
      assert (Hit : In t (g_set (w_gen w))).
      { rewrite <- Hfst. apply in_map_iff. exists (t, u). auto. }
      apply Hus in Hit. unfold usable, EMPTY_TYPE in *. lia.
    + intros (Hne & t & Hu). apply Hk in Hu. destruct Hu as [(He & _)|(_ & _ & Hf)];
        [contradiction|]. exists (t, u). split; [reflexivity|]. apply Hin. exact Hf.
Qed.

Lemma get_type_total : forall u w, world_ok w ->
  (exists l, NoDup l /\ (List.length l <= N.to_nat 65534)%nat /\
     forall v, (v = u \/ exists t, map_find v (w_ele w) = Some t) -> v <> w_empty w -> In v l) ->
  exists r, get_type (N.to_nat 131072) u w = Val r.
Proof.
  intros u w Hok (l & Hnd & Hlen & Hall). unfold get_type.
  destruct (kept w u =? UNDEFINED_TYPE) eqn:Ek; [|eexists; reflexivity].
  destruct (u =? w_empty w) eqn:Ee; [eexists; reflexivity|].
  destruct (kept_size w Hok) as (l2 & Hnd2 & Hlen2 & Hl2).
  destruct (make_next_total u (w_gen w) (wok_gen _ Hok)) as (t & g' & En).
  - rewrite <- Hlen2.
    assert (Hi : incl (u :: l2) l).
    { intros v [Hv|Hv]; [subst v; apply Hall; [auto|lia]|].
      apply Hl2 in Hv. destruct Hv as (Hne & Hv). apply Hall; auto. }
    apply NoDup_incl_length in Hi; [cbn in Hi; lia|].
    constructor; [|exact Hnd2]. intros Hu. apply Hl2 in Hu. destruct Hu as (_ & t & Hu).
    unfold kept in Ek. rewrite Hu in Ek.
    apply (wok_kept _ Hok) in Hu. unfold usable, EMPTY_TYPE, UNDEFINED_TYPE in *. lia.
  - rewrite En. destruct (_ || _); eexists; reflexivity.
Qed.

(** As long as at most 65534 different classes (besides Empty) are asked for, no assertion
    fails and every search ends, after at most 131072 numbers tried.  *)
Theorem C35_capacity : forall empty us,
  (List.length (asked empty us) <= N.to_nat 65534)%nat ->
  exists r, get_types (N.to_nat 131072) us (world0 empty) = Val r.
Proof.
  intros empty us Hlen.
  assert (Hgen : forall us1 w, world_ok w -> w_empty w = empty ->
    (forall u, In u us1 -> In u us) ->
    (forall v t, map_find v (w_ele w) = Some t -> In v us) ->
    exists r, get_types (N.to_nat 131072) us1 w = Val r).
  { induction us1 as [|u us1 IH]; intros w Hok He Hin Hk; cbn [get_types];
      [eexists; reflexivity|].
    destruct (get_type_total u w Hok) as ([t w1] & E1).
    { exists (asked empty us). unfold asked. split; [apply NoDup_filter, NoDup_nodup|].
      split; [exact Hlen|]. intros v Hv Hne. apply filter_In.
      split; [|rewrite negb_true_iff; lia]. apply nodup_In.
      destruct Hv as [->|(t & Hv)]; [apply Hin; left; reflexivity|eapply Hk; exact Hv]. }
    rewrite E1. assert (Hsub : forall v s, map_find v (w_ele w1) = Some s ->
      v = u \/ map_find v (w_ele w) = Some s).
    { clear - E1. unfold get_type in E1.
      destruct (kept w u =? UNDEFINED_TYPE); [|injection E1 as; subst; auto].
      destruct (u =? w_empty w).
      - injection E1 as; subst. cbn. intros v s Hv.
        destruct (u =? v) eqn:E; [left; lia|auto].
      - destruct (make_next (N.to_nat 131072) u (w_gen w)) as [[t1 g1]| |]; try discriminate E1.
        destruct (_ || _); injection E1 as; subst; cbn; intros v s Hv; [auto|].
        destruct (u =? v) eqn:E; [left; lia|auto]. }
    apply get_type_ok in E1; [|exact Hok]. destruct E1 as (Hok1 & He1 & _ & _).
    destruct (IH w1 Hok1 ltac:(congruence)) as ([ts w2] & E2).
    - intros v Hv. apply Hin. right. exact Hv.
    - intros v s Hv. apply Hsub in Hv. destruct Hv as [->|Hv]; [apply Hin; left; reflexivity|].
      eapply Hk. exact Hv.
    - rewrite E2. eexists; reflexivity. }
  apply Hgen; auto; [apply world0_ok|]. cbn. discriminate.
Qed.
Print Assumptions C35_capacity.

(** Past the capacity the generator does not fail its assertion, it searches for ever: when
    65534 numbers are in use, no bound on the search is enough.  *)
Theorem C35_exhausted : forall fuel u g, gen_ok g ->
  List.length (g_set g) = N.to_nat 65534 -> make_next fuel u g = Runs.
Proof.
  intros fuel u g Hok Hl. pose proof Hok as [H1 H2 H3 H4 H5 H6].
  unfold make_next. rewrite H4, Hl. replace (_ <? MAX_TYPE) with true by (unfold MAX_TYPE; lia).
  destruct (make_type fuel (g_counter g) (g_set g)) as [[[t c] s]|] eqn:E; [|reflexivity].
  exfalso. apply make_type_spec in E. destruct E as (Hus & Hni & _). apply Hni.
  assert (Hi : incl all_types (g_set g)).
  { apply NoDup_length_incl.
    - exact H2.
    - rewrite all_types_length. lia.
    - intros x Hx. apply all_types_In. rewrite Forall_forall in H1. apply H1. exact Hx. }
  apply Hi. apply all_types_In. exact Hus.
Qed.
Print Assumptions C35_exhausted.

(** The first numbers, the class Empty in between, a class asked for twice.  *)
Example C35_ex :
  exists w, get_types 20 [100; 101; 7; 100; 102; 103] (world0 7)
  = Val ([255; 65280; 65535; 255; 31; 992], w) /\
  lookup_class 255 w = Val 100 /\ lookup_class 65535 w = Val 7 /\ lookup_class 4 w = Val NOUTI /\
  List.length (asked 7 [100; 101; 7; 100; 102; 103]) = 4%nat.
Proof.
  eexists. split; [vm_compute; reflexivity|]. repeat split; vm_compute; reflexivity.
Qed.
