(* TypeTableProofs.v: lemmas on type keys and the type table. *)
From Coq Require Import List NArith ZArith Lia Bool.
From Coq Require Import ZifyBool ZifyNat ZifyN.
From Verif Require Import Base SourceStreamModel SourceStreamProofs UTypeModel TypeTableModel.
Import ListNotations.
Ltac Zify.zify_post_hook ::= Z.div_mod_to_equations.
Open Scope N_scope.

Lemma alt_num_inj a b : alt_num a = alt_num b -> a = b.
Proof. destruct a, b; cbn; congruence. Qed.

Lemma key_eqb_eq a b : key_eqb a b = true <-> a = b.
Proof.
  split.
  - unfold key_eqb. intros H. repeat (apply andb_true_iff in H; destruct H as [H ?]).
    destruct a as [n1 b1 a1 i1 r1], b as [n2 b2 a2 i2 r2]. cbn in *.
    apply N.eqb_eq in H. apply Z.eqb_eq in H3, H2. apply N.eqb_eq in H1, H0. apply alt_num_inj in H0. congruence.
  - intros ->. unfold key_eqb. rewrite !N.eqb_refl, !Z.eqb_refl. reflexivity.
Qed.

(* the order as a comparison field by field *)
Lemma key_lt_spec a b : key_lt a b = true <->
  (k_name a < k_name b \/ k_name a = k_name b /\
  ((k_bits a < k_bits b)%Z \/ k_bits a = k_bits b /\
  ((k_arr a < k_arr b)%Z \/ k_arr a = k_arr b /\
  (k_inst a < k_inst b \/ k_inst a = k_inst b /\ alt_num (k_ref a) < alt_num (k_ref b))))).
Proof.
  unfold key_lt.
  destruct (N.ltb_spec (k_name a) (k_name b)); [split; [lia|auto]|].
  destruct (N.ltb_spec (k_name b) (k_name a)); [split; [discriminate|lia]|].
  destruct (Z.ltb_spec (k_bits a) (k_bits b)); [split; [lia|auto]|].
  destruct (Z.ltb_spec (k_bits b) (k_bits a)); [split; [discriminate|lia]|].
  destruct (Z.ltb_spec (k_arr a) (k_arr b)); [split; [lia|auto]|].
  destruct (Z.ltb_spec (k_arr b) (k_arr a)); [split; [discriminate|lia]|].
  destruct (N.ltb_spec (k_inst a) (k_inst b)); [split; [lia|auto]|].
  destruct (N.ltb_spec (k_inst b) (k_inst a)); [split; [discriminate|lia]|].
  destruct (N.ltb_spec (alt_num (k_ref a)) (alt_num (k_ref b))); [split; [lia|auto]|].
  destruct (N.ltb_spec (alt_num (k_ref b)) (alt_num (k_ref a))); split; try discriminate; lia.
Qed.

Lemma key_ext a b : k_name a = k_name b -> k_bits a = k_bits b -> k_arr a = k_arr b -> k_inst a = k_inst b ->
  alt_num (k_ref a) = alt_num (k_ref b) -> a = b.
Proof. destruct a, b; cbn. intros -> -> -> -> H. apply alt_num_inj in H. congruence. Qed.

Lemma key_trichotomy a b : key_lt a b = true \/ a = b \/ key_lt b a = true.
Proof.
  rewrite !key_lt_spec.
  destruct (N.eq_dec (k_name a) (k_name b)) as [E1|]; [|lia].
  destruct (Z.eq_dec (k_bits a) (k_bits b)) as [E2|]; [|lia].
  destruct (Z.eq_dec (k_arr a) (k_arr b)) as [E3|]; [|lia].
  destruct (N.eq_dec (k_inst a) (k_inst b)) as [E4|]; [|lia].
  destruct (N.eq_dec (alt_num (k_ref a)) (alt_num (k_ref b))) as [E5|]; [|lia].
  right. left. apply key_ext; auto.
Qed.

Lemma equiv_eq a b : equiv a b = true <-> a = b.
Proof.
  unfold equiv. split.
  - intros H. apply andb_true_iff in H. destruct H as [H1 H2]. apply negb_true_iff in H1, H2.
    destruct (key_trichotomy a b) as [H|[H|H]]; congruence.
  - intros ->. assert (key_lt b b = false) as ->; [|reflexivity].
    destruct (key_lt b b) eqn:E; auto. apply key_lt_spec in E. lia.
Qed.
Lemma equiv_refl a : equiv a a = true.
Proof. apply equiv_eq. reflexivity. Qed.
Lemma equiv_neq a b : a <> b -> equiv a b = false.
Proof. intros H. destruct (equiv a b) eqn:E; auto. apply equiv_eq in E. contradiction. Qed.
Lemma key_dec (a b : key) : {a = b} + {a <> b}.
Proof. destruct (key_eqb a b) eqn:E; [left; apply key_eqb_eq; auto|right; intros ->; rewrite (proj2 (key_eqb_eq b b) eq_refl) in E; discriminate]. Qed.

(* ---- maps ---- *)
Lemma kfind_app {A} (m m' : kmap A) k : kfind (m ++ m') k = match kfind m k with Some a => Some a | None => kfind m' k end.
Proof. induction m as [|[k' a] m IH]; cbn; auto. destruct (equiv k' k); auto. Qed.

Lemma kfind_insert_same {A} (m : kmap A) k a : kfind (kinsert m k a) k <> None.
Proof.
  unfold kinsert. destruct (kfind m k) eqn:E; [congruence|]. rewrite kfind_app, E. cbn. rewrite equiv_refl. discriminate.
Qed.
Lemma kfind_insert_other {A} (m : kmap A) k a k' : k <> k' -> kfind (kinsert m k a) k' = kfind m k'.
Proof.
  intros H. unfold kinsert. destruct (kfind m k) eqn:E; auto. rewrite kfind_app. cbn. rewrite (equiv_neq k k' H). destruct (kfind m k'); auto.
Qed.
Lemma kfind_insert_keep {A} (m : kmap A) k a k' x : kfind m k' = Some x -> kfind (kinsert m k a) k' = Some x.
Proof. intros H. unfold kinsert. destruct (kfind m k); auto. rewrite kfind_app, H. reflexivity. Qed.

Lemma kfind_set_same {A} (m : kmap A) k a : kfind m k <> None -> kfind (kset m k a) k = Some a.
Proof.
  induction m as [|[k' b] m IH]; cbn; [congruence|]. destruct (equiv k' k) eqn:E; cbn; rewrite E; auto.
Qed.
Lemma kfind_set_other {A} (m : kmap A) k a k' : k <> k' -> kfind (kset m k a) k' = kfind m k'.
Proof.
  intros H. induction m as [|[k2 b] m IH]; cbn; auto. destruct (equiv k2 k) eqn:E; cbn.
  - apply equiv_eq in E. subst k2. rewrite (equiv_neq k k' H). reflexivity.
  - rewrite IH. reflexivity.
Qed.
Lemma kfind_erase_same {A} (m : kmap A) k : kfind (kerase m k) k = None.
Proof.
  unfold kerase. induction m as [|[k' b] m IH]; cbn; auto. destruct (equiv k' k) eqn:E; cbn; auto. rewrite E. auto.
Qed.
Lemma kfind_erase_other {A} (m : kmap A) k k' : k <> k' -> kfind (kerase m k) k' = kfind m k'.
Proof.
  intros H. unfold kerase. induction m as [|[k2 b] m IH]; cbn; auto. destruct (equiv k2 k) eqn:E; cbn.
  - apply equiv_eq in E. subst k2. rewrite (equiv_neq k k' H). auto.
  - rewrite IH. reflexivity.
Qed.

(* ---- the sets of indexes of each key ---- *)
Definition has (m : kmap (list N)) (k : key) (x : N) : Prop := exists s, kfind m k = Some s /\ In x s.
Definition nonempty (m : kmap (list N)) : Prop := forall k, kfind m k <> Some [].

Lemma has_some m k : nonempty m -> (kfind m k <> None <-> exists x, has m k x).
Proof.
  intros H. split.
  - destruct (kfind m k) as [[|x s]|] eqn:E; intros H1; try congruence.
    exists x. exists (x :: s). split; auto. left. reflexivity.
  - intros (x & s & E & _). congruence.
Qed.

Lemma has_increment m k u k' x : has (increment m k u) k' x <-> has m k' x \/ k' = k /\ x = u.
Proof.
  unfold increment, has. destruct (key_dec k k') as [<-|N].
  - destruct (kfind m k) as [s|] eqn:E.
    + rewrite (kfind_set_same m k) by congruence. split.
      * intros (s' & ES & HI). injection ES as <-. destruct (existsb (N.eqb u) s) eqn:EX; [left; eauto|].
        destruct HI as [<-|HI]; [right; auto|left; eauto].
      * intros [(s' & ES & HI)|[_ ->]]; eexists; (split; [reflexivity|]).
        -- injection ES as <-. destruct (existsb (N.eqb u) s); auto. right. auto.
        -- destruct (existsb (N.eqb u) s) eqn:EX; [|left; reflexivity]. apply existsb_exists in EX. destruct EX as (y & Hy & EY).
           apply N.eqb_eq in EY. congruence.
    + rewrite kfind_app, E. cbn. rewrite equiv_refl. split.
      * intros (s' & ES & HI). injection ES as <-. destruct HI as [<-|[]]. right. auto.
      * intros [(s' & ES & HI)|[_ ->]]; [discriminate|]. eexists. split; [reflexivity|]. left. reflexivity.
  - assert (kfind (match kfind m k with Some s => kset m k (if existsb (N.eqb u) s then s else u :: s) | None => m ++ [(k, [u])] end) k' = kfind m k') as ->.
    { destruct (kfind m k) as [s|] eqn:E; [apply kfind_set_other; auto|]. rewrite kfind_app. cbn. rewrite (equiv_neq k k' N). destruct (kfind m k'); auto. }
    split; [auto|]. intros [H|[H _]]; auto. congruence.
Qed.

Lemma nonempty_increment m k u : nonempty m -> nonempty (increment m k u).
Proof.
  intros H k' E. unfold increment in E. destruct (key_dec k k') as [<-|N].
  - destruct (kfind m k) as [s|] eqn:ES.
    + rewrite (kfind_set_same m k) in E by congruence. injection E as E. destruct (existsb (N.eqb u) s); [|discriminate].
      subst s. exact (H k ES).
    + rewrite kfind_app, ES in E. cbn in E. rewrite equiv_refl in E. discriminate.
  - destruct (kfind m k) as [s|] eqn:ES; [rewrite kfind_set_other in E by auto; exact (H k' E)|].
    rewrite kfind_app in E. cbn in E. rewrite (equiv_neq k k' N) in E. destruct (kfind m k') as [s'|] eqn:E2; [|discriminate].
    injection E as ->. exact (H k' E2).
Qed.

Lemma has_decrement m k u k' x : has (fst (decrement m k u)) k' x <-> has m k' x /\ ~ (k' = k /\ x = u).
Proof.
  unfold decrement, has. destruct (kfind m k) as [s|] eqn:E; cbn [fst].
  - assert (forall y, In y (filter (fun x => negb (x =? u)) s) <-> In y s /\ y <> u) as HF.
    { intros y. rewrite filter_In. rewrite negb_true_iff, N.eqb_neq. reflexivity. }
    destruct (filter (fun x => negb (x =? u)) s) as [|a s'] eqn:EF.
    + destruct (key_dec k k') as [<-|N].
      * rewrite kfind_erase_same. split; [intros (? & H & _); discriminate|].
        intros [(s2 & ES & HI) HN]. rewrite E in ES. injection ES as <-. exfalso.
        apply (proj2 (HF x)). split; auto.
      * rewrite kfind_erase_other by auto. split; [intros H; split; auto; intros [-> _]; congruence|intros [H _]; auto].
    + destruct (key_dec k k') as [<-|N].
      * rewrite kfind_set_same by congruence. split.
        -- intros (s2 & ES & HI). injection ES as <-. apply HF in HI. destruct HI as [HI HN]. split; [eauto|]. intros [_ ->]. contradiction.
        -- intros [(s2 & ES & HI) HN]. rewrite E in ES. injection ES as <-. eexists. split; [reflexivity|]. apply HF. auto.
      * rewrite kfind_set_other by auto. split; [intros H; split; auto; intros [-> _]; congruence|intros [H _]; auto].
  - split; [intros H; split; auto; intros [-> ->]; destruct H as (s & H & _); congruence|intros [H _]; auto].
Qed.

Lemma nonempty_decrement m k u : nonempty m -> nonempty (fst (decrement m k u)).
Proof.
  intros H k' E. unfold decrement in E. destruct (kfind m k) as [s|] eqn:ES; cbn [fst] in E; [|exact (H k' E)].
  destruct (filter (fun x => negb (x =? u)) s) as [|a s'] eqn:EF; destruct (key_dec k k') as [<-|N].
  - rewrite kfind_erase_same in E. discriminate.
  - rewrite kfind_erase_other in E by auto. exact (H k' E).
  - rewrite kfind_set_same in E by congruence. discriminate.
  - rewrite kfind_set_other in E by auto. exact (H k' E).
Qed.

Lemma count_decrement m k u : snd (decrement m k u) = O <-> (forall x, ~ has (fst (decrement m k u)) k x).
Proof.
  unfold decrement, has. destruct (kfind m k) as [s|] eqn:E; cbn [fst snd].
  - destruct (filter (fun x => negb (x =? u)) s) as [|a s'] eqn:EF.
    + split; auto. intros _ x (s2 & ES & _). rewrite kfind_erase_same in ES. discriminate.
    + split; [discriminate|]. intros H. exfalso. apply (H a). rewrite kfind_set_same by congruence. eexists. split; [reflexivity|left; reflexivity].
  - split; auto. intros _ x (s & ES & _). congruence.
Qed.

Lemma least_spec l u : least l = Some u -> In u l /\ forall x, In x l -> u <= x.
Proof.
  revert u. induction l as [|a l IH]; cbn; [discriminate|]. intros u. destruct (least l) as [b|] eqn:E.
  - intros H. injection H as <-. destruct (IH b eq_refl) as [H1 H2]. split.
    + destruct (N.min_spec a b) as [[_ ->]|[_ ->]]; auto.
    + intros x [->|Hx]; [lia|]. specialize (H2 x Hx). lia.
  - intros H. injection H as <-. split; auto. intros x [->|Hx]; [lia|]. destruct l; [destruct Hx|]. cbn in E. destruct (least l); discriminate.
Qed.
Lemma least_some l : l <> [] -> least l <> None.
Proof. destruct l as [|a l]; [congruence|]. cbn. destruct (least l); discriminate. Qed.

(* the least index with a key *)
Definition lowest (m : kmap (list N)) (k : key) (u : N) : Prop := has m k u /\ forall x, has m k x -> u <= x.
Lemma any_lowest T k u : anyDefinedUTI T k = Some u -> lowest (t_any T) k u.
Proof.
  unfold anyDefinedUTI. destruct (kfind (t_any T) k) as [s|] eqn:E; [|discriminate]. intros H. apply least_spec in H. destruct H as [H1 H2].
  split; [exists s; auto|]. intros x (s' & E' & HI). rewrite E in E'. injection E' as <-. auto.
Qed.
Lemma lowest_any T k u : lowest (t_any T) k u -> anyDefinedUTI T k = Some u.
Proof.
  intros [(s & E & HI) H]. unfold anyDefinedUTI. rewrite E. destruct (least s) as [b|] eqn:EL.
  - apply least_spec in EL. destruct EL as [H1 H2]. f_equal. specialize (H2 u HI). assert (u <= b) by (apply H; exists s; auto). lia.
  - exfalso. revert EL. apply least_some. destruct s; [destruct HI|discriminate].
Qed.

(* ---- what holds of every table ---- *)
Record Inv (T : table) : Prop := {
  inv_len : List.length (t_root T) = List.length (t_idx T);
  inv_reg : forall i k, nth_error (t_idx T) i = Some k -> has (t_any T) k (N.of_nat i);
  inv_own : forall k u, has (t_any T) k u ->
      nth_error (t_idx T) (N.to_nat u) = Some k \/ nth_error (t_idx T) 0 = Some k /\ (N.to_nat u < List.length (t_idx T))%nat;
  inv_def : forall k, kfind (t_def T) k <> None <-> exists x, has (t_any T) k x;
  inv_ne : nonempty (t_any T) }.

Lemma inv_below T k u : Inv T -> has (t_any T) k u -> (N.to_nat u < List.length (t_idx T))%nat.
Proof.
  intros I H. destruct (inv_own T I k u H) as [H1|[_ H1]]; auto. apply nth_error_Some. congruence.
Qed.

(* the index found for a key has that key *)
Lemma lowest_denotes T k u : Inv T -> lowest (t_any T) k u -> nth_error (t_idx T) (N.to_nat u) = Some k.
Proof.
  intros I [H1 H2]. destruct (inv_own T I k u H1) as [H|[H HL]]; auto.
  pose proof (inv_reg T I 0%nat k H) as H0. specialize (H2 _ H0). assert (u = 0) by lia. subst u. exact H.
Qed.

Lemma inv_empty : Inv (mkTab [] [] [] []).
Proof.
  constructor; cbn; auto.
  - intros [|i] k H; discriminate.
  - intros k u (s & H & _). discriminate.
  - intros k. split; [congruence|]. intros (x & s & H & _). discriminate.
  - intros k. cbn. discriminate.
Qed.

(* adding an index at the end *)
Lemma inv_extend T k def :
  Inv T -> (forall k', kfind (t_def T) k' <> None -> kfind def k' <> None) -> (forall k', k' <> k -> kfind def k' = kfind (t_def T) k') ->
  kfind def k <> None ->
  let u := N.of_nat (List.length (t_idx T)) in
  Inv (mkTab (t_idx T ++ [k]) def (increment (t_any T) k u) (t_root T ++ [u])).
Proof.
  intros I HK HO HD u. constructor; cbn [t_idx t_def t_any t_root].
  - rewrite !app_length, (inv_len T I). reflexivity.
  - intros i k' H. apply has_increment. destruct (Nat.lt_ge_cases i (List.length (t_idx T))) as [HL|HL].
    + rewrite nth_error_app1 in H by auto. left. apply (inv_reg T I). auto.
    + rewrite nth_error_app2 in H by auto. destruct (i - List.length (t_idx T))%nat as [|j] eqn:EJ; cbn in H; [|destruct j; discriminate].
      injection H as <-. right. split; auto. unfold u. lia.
  - intros k' x H. apply has_increment in H. destruct H as [H|[-> ->]].
    + pose proof (inv_below T k' x I H) as HB. destruct (inv_own T I k' x H) as [H1|[H1 H2]].
      * left. rewrite nth_error_app1; auto.
      * right. split; [rewrite nth_error_app1; auto; lia|]. rewrite app_length. lia.
    + left. unfold u. rewrite Nat2N.id. rewrite nth_error_app2 by lia. rewrite Nat.sub_diag. reflexivity.
  - intros k'. split.
    + intros H. destruct (key_dec k' k) as [->|N]; [exists u; apply has_increment; auto|].
      rewrite HO in H by auto. apply (inv_def T I) in H. destruct H as (x & H). exists x. apply has_increment. auto.
    + intros (x & H). apply has_increment in H. destruct H as [H|[-> ->]]; auto. apply HK. apply (inv_def T I). eauto.
  - apply nonempty_increment. apply (inv_ne T I).
Qed.

Section Ops.
Variable template : N -> option bool.
Variable makeInfo : key -> etype -> ulamclass -> info.
Notation make := (makeUlamType template makeInfo).

(* a registration finds an index, or adds one at the end, or gives the class back *)
Lemma make_cases T k e ct T' u : Inv T -> make T k e ct = Some (T', u) ->
  T' = T /\ (lowest (t_any T) k u \/ e = EClass /\ k_arr k = (-1)%Z /\ k_ref k = AltNot /\ u = k_inst k) \/
  exists k' inf, u = N.of_nat (List.length (t_idx T)) /\
    T' = mkTab (t_idx T ++ [k']) (kinsert (t_def T) k' inf) (increment (t_any T) k' u) (t_root T ++ [u]) /\
    (e <> EClass -> k' = append k 0) /\ (e = EClass -> k_arr k <> (-1)%Z \/ k_ref k <> AltNot -> k' = k) /\
    ((k_bits k <> -2)%Z -> (k_arr k <> -2)%Z -> kfind (t_def T) k = None).
Proof.
  intros I E. unfold makeUlamType in E.
  assert (forall k' o, (if u16 (N.of_nat (List.length (t_idx T))) =? N.of_nat (List.length (t_root T))
       then Some (mkTab (t_idx T ++ [k']) (kinsert (t_def T) k' (makeInfo k' e ct))
                (increment (t_any T) k' (u16 (N.of_nat (List.length (t_idx T))))) (t_root T ++ [u16 (N.of_nat (List.length (t_idx T)))]), u16 (N.of_nat (List.length (t_idx T)))) else None) = Some o ->
       u16 (N.of_nat (List.length (t_idx T))) = N.of_nat (List.length (t_idx T)) /\
       o = (mkTab (t_idx T ++ [k']) (kinsert (t_def T) k' (makeInfo k' e ct))
                (increment (t_any T) k' (N.of_nat (List.length (t_idx T)))) (t_root T ++ [N.of_nat (List.length (t_idx T))]), N.of_nat (List.length (t_idx T)))) as HF.
  { intros k' o. rewrite (inv_len T I). destruct (N.eqb_spec (u16 (N.of_nat (List.length (t_idx T)))) (N.of_nat (List.length (t_idx T)))) as [EU|]; [|discriminate].
    rewrite EU. intros H. injection H as <-. auto. }
  cbn [t_idx t_def t_any t_root] in E.
  destruct (negb (k_bits k =? UNKNOWNSIZE)%Z && negb (k_arr k =? UNKNOWNSIZE)%Z) eqn:EK.
  - destruct (isDefined T k) as [i|] eqn:ED.
    + destruct (anyDefinedUTI T k) as [u'|] eqn:EA; [|discriminate]. injection E as <- <-. left. split; auto. left. apply any_lowest. auto.
    + unfold isDefined in ED.
      destruct (etype_eqb e EClass) eqn:EC.
      * assert (e = EClass) as -> by (destruct e; discriminate || reflexivity).
        destruct (Z.eqb_spec (k_arr k) NONARRAYSIZE) as [EA|EA]; cbn [negb] in E.
        -- destruct (alt_eqb (k_ref k) AltNot) eqn:ER; cbn [negb] in E.
           ++ assert (k_ref k = AltNot) as HR by (destruct (k_ref k); discriminate || reflexivity).
              destruct (k_inst k =? 0).
              ** apply HF in E. destruct E as [_ E]. injection E as -> ->. right. eexists _, _. split; [reflexivity|]. split; [reflexivity|].
                 split; [congruence|]. split; [intros _ [H|H]; exfalso; unfold NONARRAYSIZE in *; congruence|]. auto.
              ** destruct (template (k_inst k)) as [[|]|]; [|injection E as <- <-; left; split; auto|discriminate].
                 apply HF in E. destruct E as [_ E]. injection E as -> ->. right. eexists _, _. split; [reflexivity|]. split; [reflexivity|].
                 split; [congruence|]. split; [intros _ [H|H]; exfalso; unfold NONARRAYSIZE in *; congruence|]. auto.
           ++ apply HF in E. destruct E as [_ E]. injection E as -> ->. right. eexists _, _. split; [reflexivity|]. split; [reflexivity|].
              split; [congruence|]. split; auto.
        -- apply HF in E. destruct E as [_ E]. injection E as -> ->. right. eexists _, _. split; [reflexivity|]. split; [reflexivity|].
           split; [congruence|]. split; auto.
      * assert (e <> EClass) as HE by (intros ->; discriminate).
        apply HF in E. destruct E as [_ E]. injection E as -> ->. right. eexists _, _. split; [reflexivity|]. split; [reflexivity|].
        split; [auto|]. split; [congruence|]. auto.
  - assert ((k_bits k <> -2)%Z -> (k_arr k <> -2)%Z -> kfind (t_def T) k = None) as HU.
    { intros H1 H2. exfalso. unfold UNKNOWNSIZE in EK. lia. }
      destruct (etype_eqb e EClass) eqn:EC.
      * assert (e = EClass) as -> by (destruct e; discriminate || reflexivity).
        destruct (Z.eqb_spec (k_arr k) NONARRAYSIZE) as [EA|EA]; cbn [negb] in E.
        -- destruct (alt_eqb (k_ref k) AltNot) eqn:ER; cbn [negb] in E.
           ++ assert (k_ref k = AltNot) as HR by (destruct (k_ref k); discriminate || reflexivity).
              destruct (k_inst k =? 0).
              ** apply HF in E. destruct E as [_ E]. injection E as -> ->. right. eexists _, _. split; [reflexivity|]. split; [reflexivity|].
                 split; [congruence|]. split; [intros _ [H|H]; exfalso; unfold NONARRAYSIZE in *; congruence|]. auto.
              ** destruct (template (k_inst k)) as [[|]|]; [|injection E as <- <-; left; split; auto|discriminate].
                 apply HF in E. destruct E as [_ E]. injection E as -> ->. right. eexists _, _. split; [reflexivity|]. split; [reflexivity|].
                 split; [congruence|]. split; [intros _ [H|H]; exfalso; unfold NONARRAYSIZE in *; congruence|]. auto.
           ++ apply HF in E. destruct E as [_ E]. injection E as -> ->. right. eexists _, _. split; [reflexivity|]. split; [reflexivity|].
              split; [congruence|]. split; auto.
        -- apply HF in E. destruct E as [_ E]. injection E as -> ->. right. eexists _, _. split; [reflexivity|]. split; [reflexivity|].
           split; [congruence|]. split; auto.
      * assert (e <> EClass) as HE by (intros ->; discriminate).
        apply HF in E. destruct E as [_ E]. injection E as -> ->. right. eexists _, _. split; [reflexivity|]. split; [reflexivity|].
        split; [auto|]. split; [congruence|]. auto.
Qed.

Lemma make_inv T k e ct T' u : Inv T -> make T k e ct = Some (T', u) -> Inv T'.
Proof.
  intros I E. apply make_cases in E; auto. destruct E as [[-> _]|(k' & inf & -> & -> & _)]; auto.
  apply inv_extend; auto.
  - intros k2 H. destruct (kfind (t_def T) k2) as [x|] eqn:E2; [|congruence]. rewrite (kfind_insert_keep _ _ _ _ x); congruence.
  - intros k2 H. apply kfind_insert_other. auto.
  - apply kfind_insert_same.
Qed.

Lemma holder_inv T T' u : Inv T -> makeUlamTypeHolder T = Some (T', u) -> Inv T'.
Proof.
  intros I. unfold makeUlamTypeHolder. destruct (getUlamType T 12) as [[hkey inf]|] eqn:EG; [|discriminate].
  rewrite (inv_len T I). destruct (N.eqb_spec (u16 (N.of_nat (List.length (t_idx T)))) (N.of_nat (List.length (t_idx T)))) as [EU|]; [|discriminate].
  rewrite EU. intros H. injection H as <- _. apply inv_extend; auto. unfold getUlamType in EG.
  destruct (nth_error (t_idx T) (N.to_nat 12)) as [k|]; [|discriminate]. destruct (isDefined T k) as [i|] eqn:E1.
  - injection EG as -> ->. unfold isDefined in E1. congruence.
  - destruct (nth_error (t_idx T) 1) as [kn|]; [|discriminate]. destruct (isDefined T kn) as [i|] eqn:E2; [|discriminate].
    injection EG as -> ->. unfold isDefined in E2. congruence.
Qed.

Lemma alias_inv T a b T' : Inv T -> updateAlias T a b = Some T' -> Inv T'.
Proof.
  intros I. unfold updateAlias. destruct ((a <? N.of_nat (List.length (t_root T))) && (b <? N.of_nat (List.length (t_root T)))); [|discriminate].
  intros H. injection H as <-. destruct I as [I1 I2 I3 I4 I5]. constructor; cbn [t_idx t_def t_any t_root]; auto. rewrite set_nth_length. auto.
Qed.

(* the key of an index is taken away *)
Lemma delete_inv T k u T' : Inv T -> u <> 0 -> nth_error (t_idx T) (N.to_nat u) = Some k -> deleteKey T k u = Some T' ->
  Inv T' /\ nth_error (t_idx T') (N.to_nat u) = nth_error (t_idx T') 0 /\ t_root T' = t_root T /\ List.length (t_idx T') = List.length (t_idx T).
Proof.
  intros I Hu HK. unfold deleteKey. destruct (decrement (t_any T) k u) as [any count] eqn:ED.
  destruct (nth_error (t_idx T) 0) as [nokey|] eqn:E0; [|discriminate]. intros H. injection H as <-. cbn [t_idx t_def t_any t_root].
  assert (any = fst (decrement (t_any T) k u)) as HA by (rewrite ED; auto). assert (count = snd (decrement (t_any T) k u)) as HC by (rewrite ED; auto).
  assert (N.to_nat u < List.length (t_idx T))%nat as HU by (apply nth_error_Some; congruence).
  assert (nth_error (set_nth (N.to_nat u) nokey (t_idx T)) 0 = Some nokey) as N0 by (rewrite nth_set_other by lia; auto).
  split; [|split; [rewrite nth_set_same by auto; congruence|split; [auto|rewrite set_nth_length; auto]]].
  constructor; cbn [t_idx t_def t_any t_root].
  - rewrite set_nth_length. apply (inv_len T I).
  - intros i k' H. apply has_increment. destruct (Nat.eq_dec (N.to_nat u) i) as [EI|NI].
    + subst i. rewrite nth_set_same in H by auto. injection H as <-. right. split; auto. lia.
    + rewrite nth_set_other in H by auto. left. rewrite HA. apply has_decrement. split; [apply (inv_reg T I); auto|]. intros [_ H1]. lia.
  - intros k' x H. rewrite set_nth_length. apply has_increment in H. destruct H as [H|[-> ->]]; [|right; auto].
    rewrite HA in H. apply has_decrement in H. destruct H as [H HN]. destruct (N.eq_dec x u) as [->|NX].
    + destruct (inv_own T I k' u H) as [H1|[H1 H2]]; [exfalso; apply HN; split; congruence|]. right. split; auto. congruence.
    + destruct (inv_own T I k' x H) as [H1|[H1 H2]]; [left; rewrite nth_set_other by lia; auto|]. right. split; [congruence|auto].
  - assert (has (t_any T) nokey 0) as HN0 by (apply (inv_reg T I 0%nat); auto).
    assert (forall k', k' <> k -> kfind (match count with O => kerase (t_def T) k | S _ => t_def T end) k' = kfind (t_def T) k') as HO.
    { intros k' N. destruct count; auto. apply kfind_erase_other. auto. }
    intros k'. destruct (key_dec k' k) as [->|NK].
    + destruct count as [|c].
      * rewrite kfind_erase_same. split; [congruence|]. intros (x & H). exfalso. apply has_increment in H.
        symmetry in HC. rewrite count_decrement in HC. destruct H as [H|[-> ->]]; [rewrite HA in H; exact (HC _ H)|].
        apply (HC 0). apply has_decrement. split; auto. intros [_ H1]. congruence.
      * split; [|intros _; apply (inv_def T I); exists u; apply (inv_reg T I) in HK; rewrite N2Nat.id in HK; auto].
        intros _. rewrite HA. destruct (has_some (fst (decrement (t_any T) k u)) k (nonempty_decrement _ _ _ (inv_ne T I))) as [G _].
        destruct (kfind (fst (decrement (t_any T) k u)) k) as [s|] eqn:EF.
        -- destruct (G ltac:(discriminate)) as (x & Hx). exists x. apply has_increment. auto.
        -- exfalso. assert (snd (decrement (t_any T) k u) = O) as HZ.
           { apply count_decrement. intros x (s & Hs & _). congruence. }
           congruence.
    + rewrite HO by auto. rewrite (inv_def T I k'). split.
      * intros (x & H). exists x. apply has_increment. left. rewrite HA. apply has_decrement. split; auto. intros [H1 _]. contradiction.
      * intros (x & H). apply has_increment in H. destruct H as [H|[-> ->]]; [rewrite HA in H; apply has_decrement in H; destruct H; eauto|eauto].
  - apply nonempty_increment. rewrite HA. apply nonempty_decrement. apply (inv_ne T I).
Qed.

(* an index whose key was taken away gets a new one *)
Lemma setkey_inv T newkey u def : Inv T -> u <> 0 -> nth_error (t_idx T) (N.to_nat u) = nth_error (t_idx T) 0 ->
  (N.to_nat u < List.length (t_idx T))%nat ->
  (forall k', kfind (t_def T) k' <> None -> kfind def k' <> None) -> (forall k', k' <> newkey -> kfind def k' = kfind (t_def T) k') ->
  kfind def newkey <> None ->
  Inv (mkTab (set_nth (N.to_nat u) newkey (t_idx T)) def (increment (t_any T) newkey u) (t_root T)).
Proof.
  intros I Hu HK HU H1 H2 H3. constructor; cbn [t_idx t_def t_any t_root].
  - rewrite set_nth_length. apply (inv_len T I).
  - intros i k' H. apply has_increment. destruct (Nat.eq_dec (N.to_nat u) i) as [EI|NI].
    + subst i. rewrite nth_set_same in H by auto. injection H as <-. right. split; auto. lia.
    + rewrite nth_set_other in H by auto. left. apply (inv_reg T I). auto.
  - intros k' x H. rewrite set_nth_length. apply has_increment in H. destruct H as [H|[-> ->]].
    + destruct (N.eq_dec x u) as [->|NX].
      * right. split; auto. rewrite nth_set_other by lia. destruct (inv_own T I k' u H) as [G|[G _]]; auto. congruence.
      * destruct (inv_own T I k' x H) as [G|[G G']]; [left; rewrite nth_set_other by lia; auto|].
        right. split; auto. rewrite nth_set_other by lia. auto.
    + left. apply nth_set_same. auto.
  - intros k'. destruct (key_dec k' newkey) as [->|NK].
    + split; auto. intros _. exists u. apply has_increment. auto.
    + rewrite H2 by auto. rewrite (inv_def T I k'). split; intros (x & H); exists x.
      * apply has_increment. auto.
      * apply has_increment in H. destruct H as [H|[H _]]; auto. contradiction.
  - apply nonempty_increment. apply (inv_ne T I).
Qed.

Lemma insert_mono (m : kmap info) k a k' : kfind m k' <> None -> kfind (kinsert m k a) k' <> None.
Proof. intros H. destruct (kfind m k') as [x|] eqn:E; [|congruence]. rewrite (kfind_insert_keep _ _ _ _ x E). discriminate. Qed.

Lemma rekey_inv T u newkey e ct T' : Inv T -> u <> 0 -> rekey makeInfo T u newkey e ct = Some T' -> Inv T'.
Proof.
  intros I Hu. unfold rekey. destruct (nth_error (t_idx T) (N.to_nat u)) as [k|] eqn:EK; [|discriminate].
  destruct (key_eqb k newkey); [intros H; injection H as <-; auto|].
  destruct (deleteKey T k u) as [T1|] eqn:ED; [|discriminate].
  destruct (delete_inv T k u T1 I Hu EK ED) as (I1 & HE & HR & HL). intros H. eapply alias_inv; [|exact H].
  apply setkey_inv; auto.
  - rewrite HL. apply nth_error_Some. congruence.
  - intros k'. apply insert_mono.
  - intros k' N. apply kfind_insert_other. auto.
  - apply kfind_insert_same.
Qed.

Lemma fromHolder_inv T u newkey e ct T' : Inv T -> u <> 0 -> fromHolder makeInfo T newkey e u ct = Some T' -> Inv T'.
Proof.
  intros I Hu. unfold fromHolder. destruct (nth_error (t_idx T) (N.to_nat u)) as [k|] eqn:EK; [|discriminate].
  destruct (key_eqb k newkey); [intros H; injection H as <-; auto|].
  destruct (deleteKey T k u) as [T1|] eqn:ED; [|discriminate].
  destruct (delete_inv T k u T1 I Hu EK ED) as (I1 & HE & HR & HL).
  assert (N.to_nat u < List.length (t_idx T1))%nat as HU by (rewrite HL; apply nth_error_Some; congruence).
  assert (forall def a, (kfind def newkey <> None -> Inv (mkTab (set_nth (N.to_nat u) newkey (t_idx T1)) def (increment (t_any T1) newkey u) (t_root T1))) ->
    match kfind def newkey with
    | Some i => if complete newkey i then updateAlias (mkTab (set_nth (N.to_nat u) newkey (t_idx T1)) def (increment (t_any T1) newkey u) (t_root T1)) u a
                else Some (mkTab (set_nth (N.to_nat u) newkey (t_idx T1)) def (increment (t_any T1) newkey u) (t_root T1))
    | None => None end = Some T' -> Inv T') as HF.
  { intros def a G. destruct (kfind def newkey) as [i|]; [|discriminate]. specialize (G ltac:(discriminate)).
    destruct (complete newkey i); intros H; [eapply alias_inv; eauto|]. injection H as <-. auto. }
  destruct (isDefined T1 newkey) as [i|] eqn:EDN.
  - destruct (anyDefinedUTI T1 newkey) as [a|]; [|discriminate]. apply HF. intros G. apply setkey_inv; auto.
  - apply HF. intros G. apply setkey_inv; auto.
    + intros k'. apply insert_mono.
    + intros k' N. apply kfind_insert_other. auto.
Qed.

Lemma type_found T u : Inv T -> forall k, nth_error (t_idx T) (N.to_nat u) = Some k -> exists i, getUlamType T u = Some (k, i) /\ kfind (t_def T) k = Some i.
Proof.
  intros I k HK. unfold getUlamType. rewrite HK. unfold isDefined.
  destruct (kfind (t_def T) k) as [i|] eqn:E; [eauto|]. exfalso.
  assert (kfind (t_def T) k <> None) as G; [|contradiction]. apply (inv_def T I). exists u. apply (inv_reg T I) in HK. rewrite N2Nat.id in HK. auto.
Qed.

Lemma replace_inv T old new T' : Inv T -> old <> 0 -> old <> new -> replaceKey T old new = Some T' -> Inv T'.
Proof.
  intros I Ho HN. unfold replaceKey. destruct (nth_error (t_idx T) (N.to_nat new)) as [kn|] eqn:EN; [|unfold getUlamType; rewrite EN; discriminate].
  destruct (type_found T new I kn EN) as (i & EG & EF). rewrite EG.
  destruct (nth_error (t_idx T) (N.to_nat old)) as [ko|] eqn:EO; [|discriminate].
  destruct (deleteKey T ko old) as [T1|] eqn:ED; [|discriminate].
  destruct (delete_inv T ko old T1 I Ho EO ED) as (I1 & HE & HR & HL). intros H. eapply alias_inv; [|exact H].
  apply setkey_inv; auto.
  - rewrite HL. apply nth_error_Some. congruence.
  - assert (nth_error (t_idx T1) (N.to_nat new) = Some kn) as EN1.
    { unfold deleteKey in ED. destruct (decrement (t_any T) ko old) as [any count]. destruct (nth_error (t_idx T) 0); [|discriminate].
      injection ED as <-. cbn [t_idx]. rewrite nth_set_other by lia. auto. }
    apply (inv_def T1 I1). exists new. apply (inv_reg T1 I1) in EN1. rewrite N2Nat.id in EN1. auto.
Qed.
End Ops.
