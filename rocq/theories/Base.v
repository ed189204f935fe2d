(* Base.v: shared vocabulary of the model: bytes, text, digits, machine words.
   Nothing in this file is specific to one function of /repo, except where a comment says so. *)
From Coq Require Import List NArith ZArith Lia String Ascii Bool.
From Coq Require Import ZifyBool ZifyNat ZifyN.
Import ListNotations.
Ltac Zify.zify_post_hook ::= Z.div_mod_to_equations.
Open Scope N_scope.

(* A text is a list of bytes; a byte is an N below 256. *)
Definition text := list N.

Definition is_byte (c : N) : bool := c <? 256.
Definition is_text (s : text) : bool := forallb is_byte s.

(* ASCII literals, for readable examples only. *)
Fixpoint txt (s : string) : text :=
  match s with
  | EmptyString => []
  | String c r => N_of_ascii c :: txt r
  end.

Definition text_eqb (a b : text) : bool :=
  if list_eq_dec N.eq_dec a b then true else false.

Lemma text_eqb_eq a b : text_eqb a b = true <-> a = b.
Proof. unfold text_eqb. destruct (list_eq_dec _ _ _); split; congruence. Qed.

Lemma text_eqb_refl a : text_eqb a a = true.
Proof. apply text_eqb_eq; reflexivity. Qed.

(* ---- positional notation ---- *)

(* digits of n in base b, least significant first, fuel-bounded *)
Fixpoint rdigits_fuel (fuel : nat) (b n : N) : list N :=
  match fuel with
  | O => []
  | S f => if n <? b then [n] else (n mod b) :: rdigits_fuel f b (n / b)
  end.

Definition rdigits (b n : N) : list N := rdigits_fuel (S (N.to_nat (N.log2 n))) b n.

(* digits of n in base b, most significant first; no leading zero, except that 0 is [0];
   this is what operator<< of an ostream prints in the stream's base *)
Definition digits (b n : N) : list N := rev (rdigits b n).

(* value of a list of digits, most significant first *)
Definition dval (b : N) (ds : list N) : N := fold_left (fun a d => a * b + d) ds 0.

(* character of a digit: 0-9 then a-f (lower case, as std::hex prints) *)
Definition digit_char (d : N) : N := if d <? 10 then 48 + d else 87 + d.

Definition dec (n : N) : text := map digit_char (digits 10 n).
Definition hex (n : N) : text := map digit_char (digits 16 n).
Definition oct (n : N) : text := map digit_char (digits 8 n).

(* ---- machine words ---- *)
Definition two32 : N := 4294967296.
Definition two64 : N := 18446744073709551616.
Definition u32 (n : N) : N := n mod two32.
Definition u64 (n : N) : N := n mod two64.

(* ---- lemmas ---- *)
Definition rval (b : N) (ds : list N) : N := fold_right (fun d a => d + b * a) 0 ds.

Lemma rdigits_fuel_val f b n : 2 <= b -> n < 2 ^ N.of_nat f -> rval b (rdigits_fuel f b n) = n.
Proof.
  revert n; induction f; intros n Hb Hn.
  - cbn in *. lia.
  - cbn [rdigits_fuel]. destruct (N.ltb_spec n b).
    + cbn. lia.
    + cbn [rval fold_right]. fold (rval b (rdigits_fuel f b (n / b))). rewrite IHf; auto.
      * pose proof (N.div_mod' n b). lia.
      * replace (N.of_nat (S f)) with (N.succ (N.of_nat f)) in Hn by lia.
        rewrite N.pow_succ_r' in Hn.
        apply N.div_lt_upper_bound; [lia|]. nia.
Qed.

Lemma log2_fuel n : n < 2 ^ N.of_nat (S (N.to_nat (N.log2 n))).
Proof.
  replace (N.of_nat (S (N.to_nat (N.log2 n)))) with (N.succ (N.log2 n)) by lia.
  destruct (N.eq_dec n 0); [subst; cbn; lia|].
  apply N.log2_spec. lia.
Qed.

Lemma dval_app b ds d : dval b (ds ++ [d]) = dval b ds * b + d.
Proof. unfold dval. rewrite fold_left_app. reflexivity. Qed.

Lemma dval_rev b ds : dval b (rev ds) = rval b ds.
Proof.
  induction ds; cbn [rev rval fold_right]; auto.
  rewrite dval_app, IHds. unfold rval. lia.
Qed.

Lemma dval_digits b n : 2 <= b -> dval b (digits b n) = n.
Proof.
  intros Hb. unfold digits. rewrite dval_rev. unfold rdigits.
  apply rdigits_fuel_val; auto. apply log2_fuel.
Qed.

Lemma rdigits_fuel_lt f b n : 2 <= b -> Forall (fun d => d < b) (rdigits_fuel f b n).
Proof.
  revert n; induction f; intros n Hb; cbn [rdigits_fuel]; auto.
  destruct (N.ltb_spec n b); constructor; auto. apply N.mod_lt. lia.
Qed.

Lemma digits_lt b n : 2 <= b -> Forall (fun d => d < b) (digits b n).
Proof.
  intros. unfold digits. apply Forall_rev. apply rdigits_fuel_lt; auto.
Qed.

Lemma digits_nonempty b n : digits b n <> [].
Proof.
  unfold digits, rdigits. cbn [rdigits_fuel].
  destruct (n <? b); cbn; intro E.
  - discriminate.
  - apply app_eq_nil in E. destruct E; discriminate.
Qed.

(* no leading zero: the last (most significant) of rdigits is nonzero if n <> 0 *)
Lemma rdigits_fuel_nz f b n : 2 <= b -> n <> 0 -> n < 2 ^ N.of_nat f ->
  exists pre d, rdigits_fuel f b n = pre ++ [d] /\ d <> 0.
Proof.
  revert n; induction f; intros n Hb Hn Hf.
  - cbn in Hf. lia.
  - cbn [rdigits_fuel]. destruct (N.ltb_spec n b).
    + exists [], n. auto.
    + destruct (IHf (n / b)) as (pre & d & E & Hd).
      * auto.
      * intro E. apply N.div_small_iff in E; lia.
      * replace (N.of_nat (S f)) with (N.succ (N.of_nat f)) in Hf by lia.
        rewrite N.pow_succ_r' in Hf.
        apply N.div_lt_upper_bound; [lia|]. nia.
      * exists (n mod b :: pre), d. rewrite E. auto.
Qed.

Lemma digits_nz b n : 2 <= b -> n <> 0 -> exists d r, digits b n = d :: r /\ d <> 0.
Proof.
  intros Hb Hn. destruct (rdigits_fuel_nz (S (N.to_nat (N.log2 n))) b n Hb Hn (log2_fuel n))
    as (pre & d & E & Hd).
  unfold digits, rdigits. rewrite E, rev_app_distr. cbn. eauto.
Qed.

Lemma digits_inj b m n : 2 <= b -> digits b m = digits b n -> m = n.
Proof. intros Hb E. rewrite <- (dval_digits b m), <- (dval_digits b n) by auto. congruence. Qed.

(* length of the digit list bounds the value *)
Lemma dval_bound b ds : 1 <= b -> Forall (fun d => d < b) ds -> dval b ds < b ^ N.of_nat (List.length ds).
Proof.
  intros Hb. induction ds using rev_ind; intros HF.
  - cbn. lia.
  - apply Forall_app in HF. destruct HF as [H1 H2]. inversion H2; subst.
    rewrite dval_app, app_length. cbn [List.length].
    replace (N.of_nat (List.length ds + 1)) with (N.succ (N.of_nat (List.length ds))) by lia.
    rewrite N.pow_succ_r'. specialize (IHds H1). nia.
Qed.

Lemma fold_dval_gen b ds a : fold_left (fun a d => a * b + d) ds a = a * b ^ N.of_nat (List.length ds) + dval b ds.
Proof.
  induction ds as [|d ds IH] using rev_ind.
  - cbn. lia.
  - rewrite fold_left_app, dval_app, app_length. cbn [fold_left List.length].
    rewrite IH. replace (N.of_nat (List.length ds + 1)) with (N.succ (N.of_nat (List.length ds))) by lia.
    rewrite N.pow_succ_r'. lia.
Qed.

Lemma dval_cons b d ds : dval b (d :: ds) = d * b ^ N.of_nat (List.length ds) + dval b ds.
Proof. unfold dval at 1. cbn [fold_left]. rewrite fold_dval_gen. lia. Qed.

(* digits is the unique representation without leading zero *)
Lemma dval_unique b ds : 2 <= b -> Forall (fun d => d < b) ds ->
  (exists d r, ds = d :: r /\ d <> 0) -> ds = digits b (dval b ds).
Proof.
  intros Hb. unfold digits.
  intros HF HH.
  enough (G : forall rs f, Forall (fun d => d < b) rs -> (exists p d, rs = p ++ [d] /\ d <> 0) ->
      rval b rs < 2 ^ N.of_nat f -> rdigits_fuel f b (rval b rs) = rs).
  { rewrite <- (rev_involutive ds) at 1. f_equal.
    rewrite <- (rev_involutive ds) at 2. rewrite dval_rev.
    unfold rdigits. symmetry. apply G.
    - apply Forall_rev; auto.
    - destruct HH as (d & r & -> & Hd). cbn. eauto.
    - apply log2_fuel. }
  clear ds HF HH. induction rs as [|r rs IH]; intros f HF HH Hf.
  - destruct HH as (p & d & E & _). destruct p; discriminate.
  - inversion HF as [|? ? Hr HF']; subst.
    destruct f as [|f].
    + cbn [N.of_nat] in Hf. rewrite N.pow_0_r in Hf.
      exfalso. destruct HH as (p & d & E & Hd).
      assert (rval b (r :: rs) <> 0); [|lia].
      rewrite E. clear -Hd Hb. induction p; cbn [app rval fold_right]; [lia|].
      unfold rval in IHp. nia.
    + cbn [rdigits_fuel rval fold_right]. fold (rval b rs).
      destruct rs as [|r2 rs].
      * cbn [rval fold_right]. destruct HH as (p & d & E & Hd).
        destruct (N.ltb_spec (r + b * 0) b); [f_equal; lia|lia].
      * assert (HH2 : exists p d, r2 :: rs = p ++ [d] /\ d <> 0).
        { destruct HH as (p & d & E & Hd). destruct p; [discriminate|]. injection E as -> E. eauto. }
        assert (rval b (r2 :: rs) <> 0) as Hnz.
        { destruct HH2 as (p & d & -> & Hd). clear -Hd Hb.
          induction p; cbn [app rval fold_right]; [lia|]. unfold rval in IHp. nia. }
        remember (rval b (r2 :: rs)) as v.
        destruct (N.ltb_spec (r + b * v) b); [nia|].
        f_equal.
        -- replace (r + b * v) with (r + v * b) by lia. rewrite N.mod_add by lia. apply N.mod_small; auto.
        -- replace ((r + b * v) / b) with v.
           ++ subst v. apply IH; auto.
              cbn [rval fold_right] in Hf. fold (rval b rs) in Hf.
              replace (N.of_nat (S f)) with (N.succ (N.of_nat f)) in Hf by lia.
              rewrite N.pow_succ_r' in Hf. cbn [rval fold_right]. fold (rval b rs).
              cbn [rval fold_right] in H. fold (rval b rs) in H.
              revert Hf. generalize (r2 + b * rval b rs). intros. nia.
           ++ replace (r + b * v) with (r + v * b) by lia. rewrite N.div_add by lia.
              rewrite (N.div_small r b) by auto. lia.
Qed.

Definition dec_digit (c : N) : bool := (48 <=? c) && (c <=? 57).

Lemma digit_char_inj a b : a < 16 -> b < 16 -> digit_char a = digit_char b -> a = b.
Proof.
  unfold digit_char. intros. destruct (N.ltb_spec a 10), (N.ltb_spec b 10); lia.
Qed.

Lemma dec_all_digits n : Forall (fun c => dec_digit c = true) (dec n).
Proof.
  unfold dec. apply Forall_map. eapply Forall_impl; [|apply digits_lt; lia].
  intros a Ha. cbv beta in *. unfold dec_digit, digit_char. destruct (N.ltb_spec a 10); lia.
Qed.

Lemma map_inj_on {A B} (f : A -> B) (P : A -> Prop) xs ys :
  (forall a b, P a -> P b -> f a = f b -> a = b) ->
  Forall P xs -> Forall P ys -> map f xs = map f ys -> xs = ys.
Proof.
  intros Hf. revert ys; induction xs; destruct ys; cbn; intros HX HY E; try discriminate; auto.
  inversion HX; inversion HY; subst. injection E as E1 E2. f_equal; auto.
Qed.

Lemma dec_inj m n : dec m = dec n -> m = n.
Proof.
  intros E. apply (digits_inj 10); [lia|].
  eapply (map_inj_on digit_char (fun d => d < 10)).
  - intros. apply digit_char_inj; auto; lia.
  - apply digits_lt; lia.
  - apply digits_lt; lia.
  - exact E.
Qed.

Lemma dec_length n : List.length (dec n) = List.length (digits 10 n).
Proof. unfold dec. apply map_length. Qed.

Lemma digits_len_small b n k : 2 <= b -> (0 < k)%nat -> n < b ^ N.of_nat k -> (List.length (digits b n) <= k)%nat.
Proof.
  intros Hb Hk Hn. unfold digits. rewrite rev_length. unfold rdigits.
  generalize (S (N.to_nat (N.log2 n))) as f. revert n Hn Hk. induction k; intros n Hn Hk f; [lia|].
  destruct f; cbn [rdigits_fuel List.length]; [lia|].
  destruct (N.ltb_spec n b); cbn [List.length]; [lia|].
  destruct k as [|k].
  - change (N.of_nat 1) with 1 in Hn. rewrite N.pow_1_r in Hn. lia.
  - apply le_n_S. apply IHk; [|lia].
    replace (N.of_nat (S (S k))) with (N.succ (N.of_nat (S k))) in Hn by lia.
    rewrite N.pow_succ_r' in Hn. apply N.div_lt_upper_bound; [lia|]. nia.
Qed.

(* checking a decidable claim for all numbers below a constant by computation *)
Definition nrange (k : nat) : list N := map N.of_nat (seq 0 k).

Lemma forall_N_below k (P : N -> bool) : forallb P (nrange k) = true -> forall c, c < N.of_nat k -> P c = true.
Proof.
  intros H c Hc. rewrite forallb_forall in H. apply H. unfold nrange. apply in_map_iff.
  exists (N.to_nat c). split; [lia|]. apply in_seq. lia.
Qed.

Definition optN_eqb (a b : option N) : bool :=
  match a, b with Some x, Some y => x =? y | None, None => true | _, _ => false end.
Lemma optN_eqb_eq a b : optN_eqb a b = true -> a = b.
Proof. destruct a, b; cbn; try congruence. intros H. apply N.eqb_eq in H. congruence. Qed.
