(* InitUseTheorems.v: C99, a variable is not used in its own initial value. *)
From Coq Require Import String List NArith Bool Lia.
From Verif Require Import Base TypeTableModel FamilyModel FamilyProofs ScopeModel ScopeSpec ScopeTheorems InitUseModel.
Import ListNotations.
Open Scope N_scope.

(* the scope of a variable begins after its declaration: in the initial value, its block does not have its name yet *)
Definition without (id : N) (t : table) : table := fun i => if i =? id then None else t i.
(* the names evaluated in an expression that are not in the arguments of a call *)
Inductive occurs : iexp -> N -> N -> Prop :=
| O_name i u : occurs (IName i u) i u
| O_left l r i u : occurs l i u -> occurs (IBin l r) i u
| O_right l r i u : occurs r i u -> occurs (IBin l r) i u
| O_un e i u : occurs e i u -> occurs (IUn e) i u
| O_cond c a b i u : occurs c i u -> occurs (IQuest c a b) i u
| O_then c a b i u : occurs a i u -> occurs (IQuest c a b) i u
| O_else c a b i u : occurs b i u -> occurs (IQuest c a b) i u
| O_head e r i u : occurs e i u -> occurs (ICons e r) i u
| O_tail e r i u : occurs r i u -> occurs (ICons e r) i u
| O_sel l m i u : occurs l i u -> occurs (ISel l m) i u
| O_on l a i u : occurs l i u -> occurs (ICallOn l a) i u.
Fixpoint no_args (e : iexp) : Prop :=
  match e with
  | IName _ _ | ITerm | INil | IMoot _ => True
  | IBin l r | ICons l r => no_args l /\ no_args r
  | IUn e | ISel e _ => no_args e
  | IQuest c a b => no_args c /\ no_args a /\ no_args b
  | ICall a => a = INil
  | ICallOn l a => no_args l /\ a = INil
  end.

Section Init.
Variables (root : N -> N) (bases : N -> option (list N)) (classes : N -> option cclass) (files : N -> option table) (is_type : N -> bool).
Hypothesis W : world root bases classes files.
Variables (x : context) (did : N) (t : table) (r : list table) (d : symbol).
Hypothesis XM : x_member x = None.
Hypothesis TD : t did = Some d.
Hypothesis DV : s_kind d = SVariable.
Hypothesis DL : s_local d = true.
Notation NP := (name_pass root bases classes files is_type x did (t :: r)).
Notation IP := (ident_pass root bases classes files is_type false x).

Lemma const_here id use a bs : constant_pass root bases classes files is_type false (here x a) id use bs = constant_pass root bases classes files is_type false x id use bs.
Proof. induction bs as [|b bs IH]; cbn [constant_pass]; [reflexivity|]. change (here (here x a) (b :: bs)) with (here x (b :: bs)). now rewrite IH. Qed.
Lemma ident_here id use a bs : ident_pass root bases classes files is_type false (here x a) id use bs = ident_pass root bases classes files is_type false x id use bs.
Proof. induction bs as [|b bs IH]; cbn [ident_pass]; [reflexivity|]. change (here (here x a) (b :: bs)) with (here x (b :: bs)). rewrite IH. now rewrite const_here. Qed.
Lemma pass_blocks id use bs : ident_pass root bases classes files is_type false x id use bs = identifier root bases classes files is_type false (here x bs) id use.
Proof. unfold identifier. cbn [x_blocks here]. symmetry. apply ident_here. Qed.
Lemma self_found use : s_decl d <= use -> IP did use (t :: r) = Means d.
Proof.
  intro U. cbn [ident_pass]. unfold alreadyDefinedSymbol, alreadyDefinedSymbolHere, current_blocks. cbn [here x_member x_blocks]. rewrite XM. cbn [app first]. rewrite TD. unfold wanted. rewrite orb_true_r. cbn [orb]. rewrite DV. unfold later. rewrite DL. cbn [andb].
  replace (use <? s_decl d) with false by (symmetry; apply N.ltb_ge; lia). reflexivity.
Qed.
Lemma name_self use : s_decl d <= use -> NP did use = IP did use r.
Proof. intro U. unfold name_pass, plain_name. rewrite (self_found use U), N.eqb_refl, DL. cbn [andb]. now rewrite TD, N.eqb_refl. Qed.
Lemma name_other id use : id <> did -> NP id use = IP id use (t :: r).
Proof. intro U. unfold name_pass, plain_name. apply N.eqb_neq in U. destruct (ident_pass root bases classes files is_type false x id use (t :: r)); auto. now rewrite U. Qed.
End Init.

Lemma names_in root bases classes files is_type x did bs e m : no_args e -> In m (initial_value root bases classes files is_type x did bs e) ->
  exists id use, occurs e id use /\ m = name_pass root bases classes files is_type x did bs id use.
Proof.
  unfold initial_value. induction e as [i u| |l IHl r IHr|e IH|c IHc a IHa b IHb| |l IHl r IHr|l IHl m'|a IHa|l IHl a IHa|e IH]; cbn [names no_args]; intros NA H; try contradiction.
  - destruct H as [<-|[]]. exists i, u. split; [constructor | reflexivity].
  - destruct NA. apply in_app_or in H. destruct H as [H|H]; [destruct (IHl ltac:(auto) H) as (i & u & O & E) | destruct (IHr ltac:(auto) H) as (i & u & O & E)]; exists i, u; (split; [|exact E]); [now apply O_left | now apply O_right].
  - destruct (IH NA H) as (i & u & O & E). exists i, u. split; [now constructor | exact E].
  - destruct NA as (N1 & N2 & N3). apply in_app_or in H. destruct H as [H|H]; [|apply in_app_or in H; destruct H as [H|H]].
    + destruct (IHc N1 H) as (i & u & O & E). exists i, u. split; [now apply O_cond | exact E].
    + destruct (IHa N2 H) as (i & u & O & E). exists i, u. split; [now apply O_then | exact E].
    + destruct (IHb N3 H) as (i & u & O & E). exists i, u. split; [now apply O_else | exact E].
  - destruct NA. apply in_app_or in H. destruct H as [H|H]; [destruct (IHl ltac:(auto) H) as (i & u & O & E) | destruct (IHr ltac:(auto) H) as (i & u & O & E)]; exists i, u; (split; [|exact E]); [now apply O_head | now apply O_tail].
  - destruct (IHl NA H) as (i & u & O & E). exists i, u. split; [now constructor | exact E].
  - subst a. destruct H.
  - destruct NA as [N1 ->]. cbn [names] in H. rewrite app_nil_r in H. destruct (IHl N1 H) as (i & u & O & E). exists i, u. split; [now constructor | exact E].
Qed.

(* the name of the variable itself, outside arguments, means what it means in the blocks around its own, and so never the variable *)
Theorem C99_outer_partial : forall root bases classes files is_type, world root bases classes files ->
  forall x (t : table) r did d use s, x_member x = None -> t did = Some d -> s_kind d = SVariable -> s_local d = true -> s_decl d <= use -> plain did r ->
  (forall t' s', In t' r -> t' did = Some s' -> s_no s' <> s_no d) ->
  name_pass root bases classes files is_type x did (t :: r) did use = Means s ->
  denotes root bases classes files (x_class x) did use (without did t :: r) s /\ s <> d.
Proof.
  intros root bases classes files is_type W x t r did d use s XM TD DV DL U PL ND H. rewrite (name_self root bases classes files is_type x did t r d XM TD DV DL use U) in H.
  rewrite pass_blocks in H. pose proof (C71_identifier_partial root bases classes files is_type W (here x r) did use XM PL) as C. rewrite H in C. destruct C as [C _]. cbn [x_class x_blocks here] in C. split.
  - assert (Q : without did t did = None) by (unfold without; now rewrite N.eqb_refl). destruct C as [C|C F|C F].
    + apply denotes_local. apply innermost_out; [|exact C]. intros s' E. congruence.
    + apply denotes_member; [|exact F]. intros t' s' [<-|I] E; [congruence | eapply C; eauto].
    + apply denotes_file; [|exact F]. intros t' s' [<-|I] E; [congruence | eapply C; eauto].
  - intros ->. destruct C as [C|C F|C F].
    + assert (E : exists t', In t' r /\ t' did = Some d). { clear - C. induction C as [t' r' s E P|t' r' s N C (t'' & I & E)]; [exists t'; split; [now left | exact E] | exists t''; split; [now right | exact E]]. } destruct E as (t' & I & E). now apply (ND t' d I E).
    + assert (L : s_local d = false); [|congruence]. clear - W F. induction F as [c s (k & Ek & I)|]; auto.
      assert (E : exists b, In b (k_blocks k) /\ (b_st b did = Some s \/ b_fn b did = Some s)).
      { clear - I. induction (k_blocks k) as [|b l IH]; cbn [flat_map app] in I; [inversion I|]. inversion I as [? ? ? E _|? ? ? _ I']; subst; [exists b; split; [now left | now left]|].
        inversion I' as [? ? ? E _|? ? ? _ I'']; subst; [exists b; split; [now left | now right]|]. destruct (IH I'') as (b' & Ib & E). exists b'. split; [now right | exact E]. }
      destruct E as (b & Ib & E). eapply (w_own root bases classes files W); eauto.
    + assert (L : s_local d = false); [|congruence]. destruct F as (_ & k & t' & Ek & Ef & E). eapply (w_file root bases classes files W); eauto.
Qed.
Print Assumptions C99_outer_partial.
(* every other name means what it means everywhere in the block *)
Theorem C99_others : forall root bases classes files is_type x did bs id use, id <> did ->
  name_pass root bases classes files is_type x did bs id use = ident_pass root bases classes files is_type false x id use bs.
Proof.
  intros root bases classes files is_type x did bs id use H. unfold name_pass, plain_name. apply N.eqb_neq in H. destruct (ident_pass root bases classes files is_type false x id use bs); auto. now rewrite H.
Qed.
Print Assumptions C99_others.
(* so an initial value without arguments does not use the variable *)
Theorem C99_unused : forall root bases classes files is_type, world root bases classes files ->
  forall x (t : table) r did d e, x_member x = None -> t did = Some d -> s_kind d = SVariable -> s_local d = true -> plain did r ->
  (forall id t' s', In t' (t :: r) -> t' id = Some s' -> s_no s' = s_no d -> t' = t /\ id = did) -> (forall id, plain id (t :: r)) -> ~ In t r ->
  no_args e -> (forall i u, occurs e i u -> s_decl d <= u) ->
  ~ In (Means d) (initial_value root bases classes files is_type x did (t :: r) e).
Proof.
  intros root bases classes files is_type W x t r did d e XM TD DV DL PL UN PA NT NA OC H. destruct (names_in _ _ _ _ _ _ _ _ _ _ NA H) as (id & use & O & E). symmetry in E.
  destruct (N.eq_dec id did) as [->|NE].
  - destruct (C99_outer_partial root bases classes files is_type W x t r did d use d XM TD DV DL (OC _ _ O) PL) as [_ X]; auto. intros t' s' I Es En. destruct (UN did t' s' (or_intror I) Es En) as [-> _]. contradiction.
  - rewrite C99_others in E by auto. rewrite pass_blocks in E. pose proof (C71_identifier_partial root bases classes files is_type W (here x (t :: r)) id use XM (PA id)) as C. rewrite E in C. destruct C as [C _]. cbn [x_class x_blocks here] in C.
    destruct C as [C|C F|C F].
    + assert (X : exists t', In t' (t :: r) /\ t' id = Some d). { clear - C. remember (t :: r) as l. clear Heql. induction C as [t' r' s E P|t' r' s N C (t'' & I & E)]; [exists t'; split; [now left | exact E] | exists t''; split; [now right | exact E]]. }
      destruct X as (t' & I & X). destruct (UN id t' d I X eq_refl) as [_ Y]. contradiction.
    + assert (L : s_local d = false); [|congruence]. clear - W F. induction F as [c s (k & Ek & I)|]; auto.
      assert (E : exists b, In b (k_blocks k) /\ (b_st b id = Some s \/ b_fn b id = Some s)).
      { clear - I. induction (k_blocks k) as [|b l IH]; cbn [flat_map app] in I; [inversion I|]. inversion I as [? ? ? E _|? ? ? _ I']; subst; [exists b; split; [now left | now left]|].
        inversion I' as [? ? ? E _|? ? ? _ I'']; subst; [exists b; split; [now left | now right]|]. destruct (IH I'') as (b' & Ib & E). exists b'. split; [now right | exact E]. }
      destruct E as (b & Ib & E). eapply (w_own root bases classes files W); eauto.
    + assert (L : s_local d = false); [|congruence]. destruct F as (_ & k & t2 & Ek & Ef & E2). eapply (w_file root bases classes files W); eauto.
Qed.
Print Assumptions C99_unused.

(* { Int a; { Int a = a + b; } }: the a in the initial value is the outer one *)
Notation ex_init e := (initial_value ex_root ex_bases ex_classes ex_files (fun _ => false) ex_fun2 12 (x_blocks ex_fun2) e).
Example C99_ex : ex_init (IBin (IName 12 31) (IName 7 32)) = [Means ex_out; Means A7] /\ x_blocks ex_fun2 = [has 12 ex_in2; has 12 ex_out] /\ s_decl ex_in2 = 30
  /\ no_args (IBin (IName 12 31) (IName 7 32)) /\ (forall i u, occurs (IBin (IName 12 31) (IName 7 32)) i u -> 30 <= u).
Proof.
  split; [vm_compute; reflexivity|]. split; [reflexivity|]. split; [reflexivity|]. split; [split; exact I|]. intros i u O. inversion O; subst; match goal with H : occurs (IName _ _) _ _ |- _ => inversion H; lia end.
Qed.
Example C99_ex_scope : (forall id t' s', In t' [has 12 ex_in2; has 12 ex_out] -> t' id = Some s' -> s_no s' = s_no ex_in2 -> t' = has 12 ex_in2 /\ id = 12)
  /\ (forall id, plain id [has 12 ex_in2; has 12 ex_out]) /\ ~ In (has 12 ex_in2) [has 12 ex_out].
Proof.
  split; [|split].
  - intros id t' s' [<-|[<-|[]]]; unfold has; destruct (id =? 12) eqn:E; try discriminate; intro H; injection H as <-; [intros _; split; [reflexivity | now apply N.eqb_eq]|]. cbn. discriminate.
  - intros id t' s' [<-|[<-|[]]]; unfold has; destruct (id =? 12); try discriminate; intro H; injection H as <-; now left.
  - intros [H|[]]. apply (f_equal (fun f => f 12)) in H. vm_compute in H. discriminate.
Qed.
(* Int a = f(a): the argument is the variable being declared, though the call's initial value is yet to be stored in it *)
Theorem C99_argument_refuted : exists root bases classes files is_type x did (t : table) r d e, world root bases classes files /\ x_member x = None /\ t did = Some d /\ s_kind d = SVariable /\ s_local d = true
  /\ e = ICall (ICons (IName did (s_decl d + 1)) INil) /\ In (Means d) (initial_value root bases classes files is_type x did (t :: r) e).
Proof.
  exists ex_root, ex_bases, ex_classes, ex_files, (fun _ => false), ex_fun2, 12, (has 12 ex_in2), [has 12 ex_out], ex_in2, (ICall (ICons (IName 12 31) INil)).
  split; [apply ex_world|]. repeat (split; [reflexivity|]). vm_compute. now left.
Qed.
Print Assumptions C99_argument_refuted.
